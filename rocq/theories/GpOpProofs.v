(** The machine code of one operation. *)
From Coq Require Import ZArith Bool List Arith Lia.
From Verif Require Import IntSpec IntModel IntProofs FixAsmModel FixAsmProofs ValueModel
  GpModel GpSpec GpFileProofs.
Import ListNotations.
Open Scope Z_scope.

Lemma odd_tag a : odd (tag a) = true.
Proof. unfold odd, tag. rewrite Z.bit0_odd, Z.add_comm. rewrite Z.odd_add_mul_2. reflexivity. Qed.
Lemma odd_spec w : odd w = true -> w = tag ((w - 1) / 2).
Proof.
  unfold odd, tag. rewrite Z.bit0_odd. intros H. apply Z.odd_spec in H as [m ->].
  replace (2 * m + 1 - 1) with (m * 2) by lia. rewrite Z.div_mul; lia.
Qed.
Lemma intval_some w a : intval w = Some a -> w = tag a.
Proof.
  unfold intval. destruct (odd w) eqn:E; [|discriminate]. intros F. injection F as <-.
  now apply odd_spec.
Qed.
Lemma intval_tag a : intval (tag a) = Some a.
Proof.
  unfold intval. rewrite odd_tag. unfold tag. f_equal. replace (2 * a + 1 - 1) with (a * 2) by lia.
  apply Z.div_mul. lia.
Qed.
Lemma intval_odd w : odd w = true -> exists a, intval w = Some a.
Proof. unfold intval. intros ->. eauto. Qed.
Lemma intval_even w : odd w = false -> intval w = None.
Proof. unfold intval. now intros ->. Qed.
Lemma tag_fixr a : is_i64 (tag a) -> fixr a.
Proof. unfold is_i64, fixr, tag. change (2 ^ 63) with (2 * 2 ^ 62). lia. Qed.
Lemma fixr_tag a : fixr a -> is_i64 (tag a).
Proof. unfold is_i64, fixr, tag. change (2 ^ 63) with (2 * 2 ^ 62). lia. Qed.

Definition asm_of (k : bkind) : Z -> Z -> aout :=
  match k with
  | Add => asm_add | Sub => asm_sub | Mul => asm_mul | Div => asm_div
  | BOr => asm_or | BAnd => asm_and | BXor => asm_xor
  end.

Lemma op_exec_ok k l r g g' w e : l <> r -> op_exec k l r g = (g', w, e) ->
  match asm_of k (g l) (g r) with Reg v => e = false /\ w = v | Deopt => e = true end /\
  (forall q, (k <> Div -> q <> l) -> (clobbers k = true -> q <> r) -> g' q = g q) /\
  (k <> Div -> w = g' l).
Proof.
  intros N. assert (r <> l) as N' by auto.
  destruct k; cbn [op_exec asm_of clobbers]; intros E.
  - injection E as <- <- <-. rewrite ?upd_eq, ?(upd_ne _ l _ r) by auto. unfold asm_add.
    rewrite ?upd_eq. split; [destruct (oflow _); auto|]. split; [|reflexivity].
    intros q Hq _. rewrite !upd_ne; auto; apply Hq; discriminate.
  - unfold asm_sub. destruct (oflow _); injection E as <- <- <-; rewrite ?upd_eq;
      (split; [auto|split; [|reflexivity]]); intros q Hq _; rewrite !upd_ne; auto; apply Hq; discriminate.
  - unfold asm_mul. rewrite ?upd_eq, ?(upd_ne _ l _ r), ?(upd_ne _ r _ l), ?upd_eq in E by auto.
    destruct (oflow _); injection E as <- <- <-; rewrite ?upd_eq;
      (split; [auto|split; [|reflexivity]]); intros q Hq Hr;
      rewrite !upd_ne; auto; apply Hq; discriminate.
  - unfold asm_div. rewrite ?upd_eq, ?(upd_ne _ r _ l) in E by auto.
    destruct (_ =? 0); injection E as <- <- <-; (split; [auto|split; [|congruence]]);
      intros q _ Hr; rewrite upd_ne; auto.
  - injection E as <- <- <-. unfold asm_or. rewrite upd_eq. split; [auto|split; [|reflexivity]].
    intros q Hq _. rewrite upd_ne; auto; apply Hq; discriminate.
  - injection E as <- <- <-. unfold asm_and. rewrite upd_eq. split; [auto|split; [|reflexivity]].
    intros q Hq _. rewrite upd_ne; auto; apply Hq; discriminate.
  - injection E as <- <- <-. unfold asm_xor. rewrite !upd_eq. split; [auto|split; [|reflexivity]].
    intros q Hq _. rewrite !upd_ne; auto; apply Hq; discriminate.
Qed.

(** Meaning of an operation on two small integers. *)
Definition op_ok (k : bkind) (a b : Z) (e : bool) (w : word) : Prop :=
  if e then forall z, zop k a b = Some z -> fits_i63 z = false
  else exists z, zop k a b = Some z /\ fits_i63 z = true /\ w = tag z.

Lemma fits_false z : ~ fixr z -> fits_i63 z = false.
Proof. intros H. destruct (fits_i63 z) eqn:E; [|reflexivity]. apply fits_fixr in E. tauto. Qed.

Lemma asm_of_ok k a b : fixr a -> fixr b -> (k = Div -> ~ (a = - 2 ^ 62 /\ b = -1)) ->
  match asm_of k (tag a) (tag b) with Reg v => op_ok k a b false v | Deopt => op_ok k a b true 0 end.
Proof.
  intros Ha Hb Hd. destruct k; cbn [asm_of].
  - pose proof (asm_add_ok a b Ha Hb) as H. destruct (asm_add _ _); cbn in *.
    + destruct H as [H ->]. exists (a + b). rewrite (proj2 (fits_fixr _) H). auto.
    + intros z E. injection E as <-. now apply fits_false.
  - pose proof (asm_sub_ok a b Ha Hb) as H. destruct (asm_sub _ _); cbn in *.
    + destruct H as [H ->]. exists (a - b). rewrite (proj2 (fits_fixr _) H). auto.
    + intros z E. injection E as <-. now apply fits_false.
  - pose proof (asm_mul_ok a b Ha Hb) as H. destruct (asm_mul _ _); cbn in *.
    + destruct H as [H ->]. exists (a * b). rewrite (proj2 (fits_fixr _) H). auto.
    + intros z E. injection E as <-. now apply fits_false.
  - specialize (Hd eq_refl). destruct (Z.eq_dec b 0) as [->|Nb].
    + unfold asm_div. rewrite untag. cbn. intros z E. discriminate.
    + destruct (proj2 (asm_div_ok a b Ha Hb Hd) Nb) as [-> Hf]. cbn [op_ok zop].
      destruct (Z.eqb_spec b 0); [contradiction|]. exists (a / b).
      rewrite (proj2 (fits_fixr _) Hf). auto.
  - destruct (asm_bit_ok a b Ha Hb) as ((-> & Hf) & _). exists (Z.lor a b).
    rewrite (proj2 (fits_fixr _) Hf). auto.
  - destruct (asm_bit_ok a b Ha Hb) as (_ & (-> & Hf) & _). exists (Z.land a b).
    rewrite (proj2 (fits_fixr _) Hf). auto.
  - destruct (asm_bit_ok a b Ha Hb) as (_ & _ & (-> & Hf)). exists (Z.lxor a b).
    rewrite (proj2 (fits_fixr _) Hf). auto.
Qed.

Definition moved (d l : reg) (g : reg -> word) : reg -> word :=
  if Nat.eqb d l then g else upd g d (g l).
Lemma mov_first d l r (g : reg -> word) : d <> r ->
  let g0 := moved d l g in
  g0 d = g l /\ g0 r = g r /\ forall q, q <> d -> g0 q = g q.
Proof.
  intros N g0. subst g0. unfold moved. destruct (Nat.eqb_spec d l) as [->|].
  - auto.
  - rewrite upd_eq, upd_ne by auto. repeat split; auto. intros q Hq. now apply upd_ne.
Qed.

Lemma bin_exec_ok k d l r g g' e a b :
  g l = tag a -> g r = tag b -> fixr a -> fixr b -> d <> r ->
  (k = Div -> l <> r /\ ~ (a = - 2 ^ 62 /\ b = -1)) ->
  bin_exec k d l r g = (g', e) ->
  (forall q, q <> d -> (clobbers k = true -> q <> r) -> g' q = g q) /\
  (k = Div -> e = true -> forall q, q <> r -> g' q = g q) /\
  op_ok k a b e (g' d).
Proof.
  intros El Er Ha Hb N Hd E.
  assert (k = Div \/ k <> Div) as [->|Nk] by (destruct k; auto; right; discriminate).
  - destruct (Hd eq_refl) as [Nl Hm]. clear Hd. cbn [bin_exec] in E.
    destruct (op_exec Div l r g) as [[g1 w] x] eqn:Eo.
    destruct (op_exec_ok _ _ _ _ _ _ _ Nl Eo) as (A & B & _). clear Eo.
    pose proof (asm_of_ok Div a b Ha Hb (fun _ => Hm)) as O. rewrite El, Er in A.
    destruct (asm_of Div (tag a) (tag b)) as [v|].
    + destruct A as [-> ->]. injection E as <- <-. split; [|split].
      * intros q Hq Hr. rewrite upd_ne by auto. apply B; [congruence|auto].
      * discriminate.
      * rewrite upd_eq. exact O.
    + subst x. injection E as <- <-. split; [|split].
      * intros q Hq Hr. apply B; [congruence|auto].
      * intros _ _ q Hq. apply B; [congruence|auto].
      * exact O.
  - assert (bin_exec k d l r g =
            let '(g1, _, e) := op_exec k d r (moved d l g) in (g1, e)) as Eb by (destruct k; first [reflexivity|congruence]).
    rewrite Eb in E. clear Eb.
    destruct (mov_first d l r g N) as (M1 & M2 & M3).
    set (g0 := moved d l g) in *. clearbody g0.
    destruct (op_exec k d r g0) as [[g1 w] x] eqn:Eo. injection E as <- <-.
    destruct (op_exec_ok _ _ _ _ _ _ _ N Eo) as (A & B & C).
    rewrite M1, M2, El, Er in A. specialize (C Nk).
    pose proof (asm_of_ok k a b Ha Hb (fun E => False_ind _ (Nk E))) as O.
    split; [|split].
    + intros q Hq Hr. rewrite B by auto. now apply M3.
    + congruence.
    + destruct (asm_of k (tag a) (tag b)) as [v|].
      * destruct A as [-> ->]. rewrite <- C. exact O.
      * subst x. exact O.
Qed.

Lemma imm_exec_ok k d l k2 g g' e a b :
  g l = tag a -> fixr a -> k2 = 2 * b -> (k = Add \/ k = Sub) ->
  imm_exec k d l k2 g = (g', e) ->
  (forall q, q <> d -> g' q = g q) /\ op_ok k a b e (g' d).
Proof.
  intros El Ha Hk2 Hk E. unfold imm_exec in E. fold (moved d l g) in E. cbv zeta in E.
  destruct (mov_first d l (S (d + l)) g ltac:(lia)) as (M1 & _ & M3).
  set (g0 := moved d l g) in *. clearbody g0.
  rewrite M1, El in E. injection E as <- <-. split.
  { intros q Hq. rewrite upd_ne by auto. now apply M3. }
  rewrite upd_eq. pose proof (asm_imm_ok a b Ha) as [O1 O2].
  unfold asm_add_imm, asm_sub_imm in O1, O2. rewrite <- Hk2 in O1, O2.
  destruct Hk as [-> | ->]; unfold op_ok, zop; cbv iota.
  - destruct (oflow (tag a + k2)); unfold exact_iff_fits in O1.
    + intros z E. injection E as <-. now apply fits_false.
    + destruct O1 as [Hf ->]. exists (a + b). rewrite (proj2 (fits_fixr _) Hf). auto.
  - destruct (oflow (tag a - k2)); unfold exact_iff_fits in O2.
    + intros z E. injection E as <-. now apply fits_false.
    + destruct O2 as [Hf ->]. exists (a - b). rewrite (proj2 (fits_fixr _) Hf). auto.
Qed.

Lemma double_exec_ok d l g g' e a : g l = tag a -> fixr a -> double_exec d l g = (g', e) ->
  (forall q, q <> d -> g' q = g q) /\ op_ok Add a a e (g' d).
Proof.
  intros El Ha E. unfold double_exec in E. fold (moved d l g) in E. cbv zeta in E.
  destruct (mov_first d l (S (d + l)) g ltac:(lia)) as (M1 & _ & M3).
  set (g0 := moved d l g) in *. clearbody g0.
  rewrite M1, El in E.
  assert (exact_iff_fits (asm_double (tag a)) (a + a)) as O.
  { destruct (asm_unary_ok a Ha) as (O & _). exact O. }
  unfold asm_double in O.
  destruct (oflow (tag a + tag a)); injection E as <- <-; cbn in O; rewrite !upd_eq; (split;
    [intros q Hq; rewrite !upd_ne by auto; now apply M3|]); unfold op_ok; cbn [zop].
  - intros z E. injection E as <-. now apply fits_false.
  - destruct O as [Hf ->]. exists (a + a). rewrite (proj2 (fits_fixr _) Hf). auto.
Qed.
