(** Lemmas about slicing an array by an arithmetic sequence. *)
From Coq Require Import ZArith Bool Lia List.
From Verif Require Import IntModel IntProofs ImSpec AseqModel AseqSpec.
Import ListNotations.
Open Scope Z_scope.
Ltac Zify.zify_post_hook ::= idtac.

Lemma get_in {A} (l : list A) i : 0 <= i < Z.of_nat (length l) -> exists a, get l i = Some a /\ nth_error l (Z.to_nat i) = Some a.
Proof.
  intros H. unfold get. destruct (Z.ltb_spec i 0); [lia|].
  destruct (nth_error l (Z.to_nat i)) eqn:E; [eauto|].
  apply nth_error_None in E. lia.
Qed.

(** The loop reads every position and never leaves the array. *)
Lemma stride_ok {A} (l : list A) s n : forall j, Z.of_nat (length l) < 2 ^ 62 -> fixnum s ->
  (forall k, (k < n)%nat -> 0 <= j + Z.of_nat k * s < Z.of_nat (length l)) ->
  exists r, stride l j s n = Some r /\
    forall k, nth_error r k = if (k <? n)%nat then nth_error l (Z.to_nat (j + Z.of_nat k * s)) else None.
Proof.
  induction n as [|n IH]; intros j L S H; cbn [stride].
  - exists []. split; [reflexivity|]. intros k. destruct k; reflexivity.
  - pose proof (H 0%nat ltac:(lia)) as H0.
    destruct (get_in l j ltac:(lia)) as [a [G E]]. rewrite G.
    unfold fixnum in S. rewrite wrap64_id by (pows; lia).
    destruct (IH (j + s) L S) as [r [ER NR]].
    { intros k K. specialize (H (Datatypes.S k) ltac:(lia)). lia. }
    rewrite ER. eexists. split; [reflexivity|]. intros [|k].
    + cbn [nth_error Nat.ltb Nat.leb]. rewrite <- E. f_equal. lia.
    + cbn [nth_error]. rewrite NR. change (Datatypes.S k <? Datatypes.S n)%nat with (k <? n)%nat.
      destruct (k <? n)%nat; [|reflexivity]. f_equal. lia.
Qed.

Lemma slice_ok {A} (l : list A) a b : 0 <= a <= b -> b <= Z.of_nat (length l) ->
  exists r, slice l a b = Some r /\ length r = Z.to_nat (b - a) /\
    forall k, nth_error r k = if (Z.of_nat k <? b - a) then nth_error l (Z.to_nat (a + Z.of_nat k)) else None.
Proof.
  intros H L. unfold slice. destruct (Z.leb_spec 0 a); [|lia]. destruct (Z.leb_spec a b); [|lia].
  destruct (Z.leb_spec b (Z.of_nat (length l))); [|lia]. cbn [andb].
  eexists. split; [reflexivity|]. split.
  - rewrite firstn_length, skipn_length. lia.
  - intros k. destruct (Z.ltb_spec (Z.of_nat k) (b - a)).
    + assert (FN : forall (x : list A) n k, (k < n)%nat -> nth_error (firstn n x) k = nth_error x k).
      { clear. induction x as [|y x IH]; intros n k K; destruct n; [lia|reflexivity|lia|].
        destruct k; [reflexivity|]. cbn. apply IH. lia. }
      rewrite FN by lia.
      assert (SN : forall (x : list A) n k, nth_error (skipn n x) k = nth_error x (n + k)).
      { clear. induction x as [|y x IH]; intros n k; destruct n; cbn; try reflexivity.
        - now destruct k.
        - apply IH. }
      rewrite SN. f_equal. lia.
    + apply nth_error_None. rewrite firstn_length. lia.
Qed.

Lemma nth_rev {A} (r : list A) k : (k < length r)%nat ->
  nth_error (rev r) k = nth_error r (length r - 1 - k).
Proof.
  intros H. destruct r as [|d r']; [cbn in H; lia|]. set (r := d :: r') in *. clearbody r.
  rewrite (nth_error_nth' (rev r) d) by (now rewrite rev_length).
  rewrite (nth_error_nth' r d) by lia. f_equal. rewrite rev_nth by assumption. f_equal. lia.
Qed.

(** The part after the bounds have been found. *)
Definition tail_of {A} (l : list A) (s beg len : Z) : picked A :=
  if len =? 0 then Picked []
  else if s =? 1 then pick (slice l beg (wrap64 (beg + len)))
  else if s =? -1 then pick (option_map (@rev A) (slice l beg (wrap64 (beg + len))))
  else
    let s_eff := if (s <? 0) && (s <? - len) then - len else s in
    let ustep := Z.abs s_eff in
    let n := Z.quot (wrap64 (wrap64 (len + ustep) - 1)) ustep in
    let j := wrap64 (beg + (if 0 <? s_eff then 0 else len - 1)) in
    pick (stride l j s_eff (Z.to_nat n)).

Lemma tail_ok {A} (l : list A) s beg len : s <> 0 -> fixnum s -> Z.of_nat (length l) < 2 ^ 61 ->
  0 <= beg -> 0 <= len -> beg + len <= Z.of_nat (length l) ->
  exists r, tail_of l s beg len = Picked r /\ picks l beg (beg + len) s r.
Proof.
  intros S F L B N H. unfold tail_of. unfold fixnum in F.
  destruct (Z.eqb_spec len 0) as [->|N0].
  { exists []. split; [reflexivity|]. intros k p. rewrite Z.add_0_r.
    replace ((beg <=? p) && (p <? beg)) with false by (destruct (Z.leb_spec beg p), (Z.ltb_spec p beg); try reflexivity; lia).
    now destruct k. }
  rewrite (wrap64_id (beg + len)) by (pows; lia).
  destruct (slice_ok l beg (beg + len) ltac:(lia) ltac:(lia)) as [r [ER [LR NR]]].
  replace (beg + len - beg) with len in * by lia.
  destruct (Z.eqb_spec s 1) as [->|S1].
  { rewrite ER. exists r. split; [reflexivity|]. intros k. cbv zeta. cbn [Z.ltb Z.compare].
    rewrite NR, Z.mul_1_r.
    destruct (Z.ltb_spec (Z.of_nat k) len), (Z.leb_spec beg (beg + Z.of_nat k)), (Z.ltb_spec (beg + Z.of_nat k) (beg + len));
      try lia; reflexivity. }
  destruct (Z.eqb_spec s (-1)) as [->|S2].
  { rewrite ER. exists (rev r). split; [reflexivity|]. intros k. cbv zeta. cbn [Z.ltb Z.compare].
    destruct (Z.ltb_spec (Z.of_nat k) len).
    - rewrite nth_rev by lia. rewrite NR.
      destruct (Z.ltb_spec (Z.of_nat (length r - 1 - k)) len); [|lia].
      destruct (Z.leb_spec beg (beg + len - 1 + Z.of_nat k * -1)); [|lia].
      destruct (Z.ltb_spec (beg + len - 1 + Z.of_nat k * -1) (beg + len)); [|lia].
      cbn [andb]. f_equal. lia.
    - destruct (Z.leb_spec beg (beg + len - 1 + Z.of_nat k * -1)); [lia|]. cbn [andb].
      apply nth_error_None. rewrite rev_length. lia. }
  set (se := if (s <? 0) && (s <? - len) then - len else s).
  assert (SE : (0 < s /\ se = s) \/ (s < 0 /\ se = Z.max s (- len))).
  { unfold se. destruct (Z.ltb_spec s 0); [|left; split; [lia|reflexivity]]. right. split; [lia|].
    destruct (Z.ltb_spec s (- len)); cbn [andb]; lia. }
  clearbody se. cbv zeta.
  rewrite (wrap64_id (len + Z.abs se)) by (pows; lia).
  rewrite (wrap64_id (len + Z.abs se - 1)) by (pows; lia).
  rewrite Z.quot_div_nonneg by lia.
  set (u := Z.abs se) in *.
  pose proof (Z.div_mod (len + u - 1) u ltac:(lia)) as D.
  pose proof (Z.mod_pos_bound (len + u - 1) u ltac:(lia)) as M.
  set (n := (len + u - 1) / u) in *. set (mm := (len + u - 1) mod u) in *.
  assert (N1 : 1 <= n) by nia.
  (* k is an index of the result iff k*u < len *)
  assert (K : forall k, 0 <= k -> (k < n <-> k * u < len)) by (intros k K0; split; intros; nia).
  rewrite wrap64_id by (destruct (0 <? se); pows; lia).
  destruct (stride_ok l se (Z.to_nat n) (beg + (if 0 <? se then 0 else len - 1))) as [r' [ER' NR']].
  { lia. }
  { unfold fixnum. lia. }
  { intros k Hk. pose proof (proj1 (K (Z.of_nat k) ltac:(lia)) ltac:(lia)) as KK.
    destruct SE as [[P ->]|[P E]].
    - destruct (Z.ltb_spec 0 s); [|lia]. unfold u in KK. rewrite Z.abs_eq in KK by lia. lia.
    - destruct (Z.ltb_spec 0 se); [lia|]. unfold u in KK. rewrite Z.abs_neq in KK by lia. lia. }
  rewrite ER'. exists r'. split; [reflexivity|]. intros k. cbv zeta. rewrite NR'.
  specialize (K (Z.of_nat k) ltac:(lia)).
  destruct SE as [[P ->]|[P E]].
  - destruct (Z.ltb_spec 0 s); [|lia]. unfold u in K. rewrite Z.abs_eq in K by lia.
    replace (beg + 0 + Z.of_nat k * s) with (beg + Z.of_nat k * s) by lia.
    destruct (Nat.ltb_spec k (Z.to_nat n)).
    + destruct (Z.leb_spec beg (beg + Z.of_nat k * s)); [|nia].
      destruct (Z.ltb_spec (beg + Z.of_nat k * s) (beg + len)); [reflexivity|]. lia.
    + destruct (Z.ltb_spec (beg + Z.of_nat k * s) (beg + len)); [|now rewrite andb_false_r].
      exfalso. assert (Z.of_nat k < n) by (apply K; lia). lia.
  - destruct (Z.ltb_spec 0 se); [lia|]. destruct (Z.ltb_spec 0 s); [lia|]. unfold u in K.
    rewrite Z.abs_neq in K by lia.
    assert (KS : (Z.of_nat k * - se < len) <-> (Z.of_nat k * - s < len)).
    { destruct (Z.max_spec s (- len)) as [[Q EQ]|[Q EQ]]; rewrite E, EQ; [|reflexivity].
      destruct (Z.eq_dec (Z.of_nat k) 0) as [->|KN]; [lia|].
      assert (1 * len <= Z.of_nat k * len) by (apply Z.mul_le_mono_nonneg_r; lia).
      assert (1 * - s <= Z.of_nat k * - s) by (apply Z.mul_le_mono_nonneg_r; lia).
      rewrite Z.opp_involutive. lia. }
    destruct (Nat.ltb_spec k (Z.to_nat n)).
    + assert (KL : Z.of_nat k * - se < len) by (apply K; lia).
      assert (EP : Z.of_nat k * se = Z.of_nat k * s).
      { destruct (Z.max_spec s (- len)) as [[Q EQ]|[Q EQ]]; rewrite EQ in E; [|now rewrite E].
        assert (Z.of_nat k = 0) as ->; [|lia]. destruct (Z.eq_dec (Z.of_nat k) 0) as [|KN]; [assumption|].
        assert (1 * len <= Z.of_nat k * len) by (apply Z.mul_le_mono_nonneg_r; lia).
        rewrite E, Z.opp_involutive in KL. lia. }
      replace (beg + (len - 1) + Z.of_nat k * se) with (beg + len - 1 + Z.of_nat k * s) by lia.
      destruct (Z.leb_spec beg (beg + len - 1 + Z.of_nat k * s)); [|lia].
      destruct (Z.ltb_spec (beg + len - 1 + Z.of_nat k * s) (beg + len)); [reflexivity|]. nia.
    + destruct (Z.leb_spec beg (beg + len - 1 + Z.of_nat k * s)); [|reflexivity].
      exfalso. assert (Z.of_nat k < n) by (apply K, KS; lia). lia.
Qed.


(** Bounds: any [beg]/[fin] found by the first half. *)
Definition core2 {A} (l : list A) (s beg fin : Z) : picked A :=
  let alen := Z.of_nat (length l) in
  let strict := 1 <? Z.abs s in
  let out := if strict then PErr ARange else PNil in
  if beg <? 0 then out
  else if alen <? beg then out
  else if strict && (alen <? wrap64 (fin - beg)) then PErr ARange
  else
    let fin := if strict then fin else Z.min fin alen in
    let len := Z.max (wrap64 (fin - beg)) 0 in
    let len := if (alen <? len) || (alen <? wrap64 (beg + len)) then wrap64 (alen - beg) else len in
    tail_of l s beg len.

Lemma core2_ok {A} (l : list A) s beg fin : s <> 0 -> fixnum s -> Z.of_nat (length l) < 2 ^ 61 ->
  - 2 ^ 62 <= beg <= 2 ^ 62 -> - 2 ^ 62 <= fin <= 2 ^ 62 ->
  slice_spec l beg fin s (core2 l s beg fin).
Proof.
  intros S F L B E. unfold slice_spec, core2. cbv zeta.
  set (alen := Z.of_nat (length l)) in *.
  destruct (Z.ltb_spec beg 0) as [B0|B0]; cbn [orb]; [reflexivity|].
  destruct (Z.ltb_spec alen beg) as [B1|B1]; [reflexivity|].
  rewrite (wrap64_id (fin - beg)) by (pows; lia).
  destruct ((1 <? Z.abs s) && (alen <? fin - beg)) eqn:ST; [reflexivity|].
  set (fin' := if 1 <? Z.abs s then fin else Z.min fin alen).
  assert (F' : fin' = fin \/ fin' = Z.min fin alen) by (unfold fin'; destruct (1 <? Z.abs s); auto).
  assert (FB : fin' - beg <= alen).
  { unfold fin'. destruct (1 <? Z.abs s); [|lia]. cbn [andb] in ST. apply Z.ltb_ge in ST. exact ST. }
  clearbody fin'. rewrite (wrap64_id (fin' - beg)) by (pows; lia).
  rewrite (wrap64_id (beg + _)) by (pows; lia). rewrite (wrap64_id (alen - beg)) by (pows; lia).
  set (len := if (alen <? Z.max (fin' - beg) 0) || (alen <? beg + Z.max (fin' - beg) 0) then alen - beg else Z.max (fin' - beg) 0).
  assert (LE : len = Z.max 0 (Z.min fin alen - beg)).
  { unfold len. destruct (Z.ltb_spec alen (Z.max (fin' - beg) 0)); cbn [orb]; [lia|].
    destruct (Z.ltb_spec alen (beg + Z.max (fin' - beg) 0)); lia. }
  clearbody len.
  destruct (tail_ok l s beg len S F L B0 ltac:(lia) ltac:(fold alen; lia)) as [r [ER PR]].
  rewrite ER. exists r. split; [reflexivity|].
  destruct (Z.le_gt_cases beg (Z.min fin alen)) as [Q|Q].
  - replace (beg + len) with (Z.min fin alen) in PR by lia. exact PR.
  - assert (len = 0) as -> by lia. rewrite Z.add_0_r in PR.
    intros k. specialize (PR k). cbv zeta in PR |- *.
    rewrite PR. 
    assert (E1 : forall p, (beg <=? p) && (p <? beg) = false).
    { intros p. destruct (Z.leb_spec beg p), (Z.ltb_spec p beg); try reflexivity; lia. }
    rewrite E1.
    assert (E2 : forall p, (beg <=? p) && (p <? Z.min fin alen) = false).
    { intros p. destruct (Z.leb_spec beg p), (Z.ltb_spec p (Z.min fin alen)); try reflexivity; lia. }
    now rewrite E2.
Qed.

Lemma norm_wrap len x : 0 <= len < 2 ^ 61 -> fixnum x \/ x = -1 \/ x = 0 \/ x = 2 ^ 62 ->
  (if x <? 0 then wrap64 (x + len) else x) = pos len x /\ - 2 ^ 62 <= pos len x <= 2 ^ 62.
Proof.
  intros L F. unfold pos, fixnum in *. destruct (Z.ltb_spec x 0).
  - rewrite wrap64_id by (pows; lia). split; [reflexivity|]. pows; lia.
  - split; [reflexivity|]. pows; lia.
Qed.


Definition core1 {A} (l : list A) (s : Z) (b e : option Z) (excl : bool) : picked A :=
  let alen := Z.of_nat (length l) in
  let excl := match e with None => false | Some _ => excl end in
  let beg := match b with Some b => b | None => 0 end in
  let fin := match e with Some e => e | None => -1 end in
  let strict := 1 <? Z.abs s in
  let out := if strict then PErr ARange else PNil in
  let beg := if beg <? 0 then wrap64 (beg + alen) else beg in
  if beg <? 0 then out
  else
    let fin := if fin <? 0 then wrap64 (fin + alen) else fin in
    let fin := if excl then fin else wrap64 (fin + 1) in
    if alen <? beg then out
    else if strict && (alen <? wrap64 (fin - beg)) then PErr ARange
    else
      let fin := if strict then fin else Z.min fin alen in
      let len := Z.max (wrap64 (fin - beg)) 0 in
      let len := if (alen <? len) || (alen <? wrap64 (beg + len)) then wrap64 (alen - beg) else len in
      tail_of l s beg len.

Lemma index_core_eq {A} (l : list A) b e s excl : index_core l b e s excl =
  if s <? 0 then
    match excl, e with
    | true, Some e => core1 l s (Some (wrap64 (e + 1))) b false
    | _, _ => core1 l s e b excl
    end
  else core1 l s b e excl.
Proof. unfold index_core, core1, tail_of. destruct (s <? 0); [destruct excl, e|]; reflexivity. Qed.

Lemma core1_eq {A} (l : list A) s b e ex : Z.of_nat (length l) < 2 ^ 61 ->
  (match b with Some z => fixnum z \/ z = 2 ^ 62 | None => True end) -> opt_fixnum e ->
  let len := Z.of_nat (length l) in
  core1 l s b e ex = core2 l s (match b with Some b => pos len b | None => 0 end)
    (match e with Some e => pos len e + (if ex then 0 else 1) | None => len end).
Proof.
  intros L Hb He len. assert (LN : 0 <= len < 2 ^ 61) by (unfold len; lia).
  unfold core1. fold len. cbv zeta.
  assert (EB : (if (match b with Some b => b | None => 0 end) <? 0
                then wrap64 ((match b with Some b => b | None => 0 end) + len)
                else match b with Some b => b | None => 0 end) =
               match b with Some b => pos len b | None => 0 end).
  { destruct b as [z|]; [|reflexivity]. apply norm_wrap; [assumption|]. tauto. }
  rewrite EB.
  assert (EF : (if match e with None => false | Some _ => ex end
                then (if (match e with Some e => e | None => -1 end) <? 0
                      then wrap64 ((match e with Some e => e | None => -1 end) + len)
                      else match e with Some e => e | None => -1 end)
                else wrap64 ((if (match e with Some e => e | None => -1 end) <? 0
                      then wrap64 ((match e with Some e => e | None => -1 end) + len)
                      else match e with Some e => e | None => -1 end) + 1)) =
               match e with Some e => pos len e + (if ex then 0 else 1) | None => len end).
  { destruct e as [z|].
    - destruct (norm_wrap len z LN (or_introl He)) as [-> P].
      destruct ex; [lia|]. apply wrap64_id. pows; lia.
    - change (-1 <? 0) with true. cbv iota. rewrite (wrap64_id (-1 + len)) by (pows; lia).
      rewrite wrap64_id by (pows; lia). lia. }
  rewrite EF. reflexivity.
Qed.

Lemma index_ok {A} (l : list A) b e s excl : s <> 0 -> fixnum s -> Z.of_nat (length l) < 2 ^ 61 ->
  opt_fixnum b -> opt_fixnum e -> plain_end e s excl ->
  let len := Z.of_nat (length l) in
  slice_spec l (span_lo len b e s excl) (span_hi len b e s excl) s (index_core l b e s excl).
Proof.
  intros S F L FB FE PE len.
  assert (LN : 0 <= len < 2 ^ 61) by (unfold len; lia).
  rewrite index_core_eq. unfold span_lo, span_hi. destruct (Z.ltb_spec 0 s) as [P|P].
  - destruct (Z.ltb_spec s 0); [lia|].
    rewrite core1_eq; [|assumption|destruct b; cbn in FB |- *; auto|assumption]. fold len.
    apply core2_ok; try assumption.
    + destruct b as [z|]; [|pows; lia]. apply norm_wrap; [assumption|]. cbn in FB. tauto.
    + destruct e as [z|]; [|pows; lia]. cbn in FE. unfold pos, fixnum in *. destruct (Z.ltb_spec z 0), excl; pows; lia.
  - destruct (Z.ltb_spec s 0); [|lia].
    destruct excl.
    + destruct (PE ltac:(lia) eq_refl) as [z [-> NZ]]. cbn [opt_fixnum] in FE. unfold fixnum in FE.
      rewrite (wrap64_id (z + 1)) by (pows; lia).
      rewrite core1_eq; [|assumption|unfold fixnum; pows; lia|assumption]. fold len.
      assert (EP : pos len (z + 1) = pos len z + 1).
      { unfold pos. destruct (Z.ltb_spec z 0), (Z.ltb_spec (z + 1) 0); lia. }
      rewrite EP. apply core2_ok; try assumption.
      * unfold pos. destruct (Z.ltb_spec z 0); pows; lia.
      * destruct b as [y|]; [|pows; lia]. cbn in FB. unfold pos, fixnum in *. destruct (Z.ltb_spec y 0); pows; lia.
    + assert (X : core1 l s e b false = core2 l s (match e with Some e => pos len e + 0 | None => 0 end)
         (match b with Some b => pos len b + 1 | None => len end)).
      { rewrite core1_eq; [|assumption|destruct e; cbn in FE |- *; auto|assumption]. fold len.
        f_equal. destruct e; lia. }
      assert (Y : match e with Some _ | None => core1 l s e b false end = core1 l s e b false) by (destruct e; reflexivity).
      cbn [opt_fixnum]. replace (match e with Some _ | None => core1 l s e b false end) with (core1 l s e b false) by (destruct e; reflexivity).
      rewrite X. apply core2_ok; try assumption.
      * destruct e as [z|]; [|pows; lia]. cbn in FE. rewrite Z.add_0_r. apply norm_wrap; [assumption|]. tauto.
      * destruct b as [y|]; [|pows; lia]. cbn in FB. unfold pos, fixnum in *. destruct (Z.ltb_spec y 0); pows; lia.
Qed.

(** Whatever the sequence, nothing outside the array is read. *)
Lemma slice_spec_safe {A} (l : list A) lo hi s r : slice_spec l lo hi s r -> r <> Wild.
Proof.
  unfold slice_spec. cbv zeta. destruct (_ || _); [intros ->; destruct (1 <? _); discriminate|].
  destruct (_ && _); [intros ->; discriminate|]. intros [l' [-> _]]. discriminate.
Qed.

Lemma coerce_fix v o : aval_ok v -> coerce_idx v = Some o -> opt_fixnum o.
Proof.
  destruct v as [[[z|z]|f]|]; cbn; intros C E; try discriminate; injection E as <-; cbn; [|trivial].
  exact C.
Qed.

Lemma index_safe {A} (q : aseq) (l : list A) : Z.of_nat (length l) < 2 ^ 61 ->
  aval_ok (sbeg q) -> aval_ok (send q) -> aval_ok (Some (sstep q)) -> index_op q l <> Wild.
Proof.
  intros L CB CE CS. unfold index_op.
  destruct (is_zero (sstep q)) eqn:Z0; [discriminate|].
  destruct (sstep q) as [[s|s]|f] eqn:ES; try discriminate.
  destruct (coerce_idx (sbeg q)) as [b|] eqn:EB; [|discriminate].
  destruct (coerce_idx (send q)) as [e|] eqn:EE; [|discriminate].
  assert (FB := coerce_fix _ _ CB EB). assert (FE := coerce_fix _ _ CE EE).
  assert (FS : opt_fixnum (Some s)) by (apply (coerce_fix (Some (AI (NFix s)))); [exact CS|reflexivity]).
  cbn in Z0. apply Z.eqb_neq in Z0. cbn in FS.
  assert (K : forall b' e' ex, (match b' with Some z => fixnum z \/ z = 2 ^ 62 | None => True end) -> opt_fixnum e' ->
    core1 l s b' e' ex <> Wild).
  { intros b' e' ex Hb He. rewrite core1_eq by assumption. eapply slice_spec_safe. apply core2_ok; try assumption.
    - destruct b' as [z|]; [|pows; lia]. apply norm_wrap; [lia|]. tauto.
    - destruct e' as [z|]; [|pows; lia]. cbn in He. unfold pos, fixnum in *. destruct (Z.ltb_spec z 0), ex; pows; lia. }
  rewrite index_core_eq. destruct (s <? 0).
  - destruct (sexcl q), e as [z|]; apply K; try assumption; cbn in *; auto.
    unfold fixnum in *. rewrite wrap64_id by (pows; lia). pows; lia.
  - apply K; [destruct b; cbn in *; auto|assumption].
Qed.
