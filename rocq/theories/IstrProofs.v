(** Lemmas about printing and parsing Integers. *)
From Coq Require Import ZArith Bool Lia ZifyBool List.
From Verif Require Import IntModel IntProofs ImModel ImSpec ImBitProofs ImArithProofs IstrModel IstrSpec.
Import ListNotations.
Open Scope Z_scope.
Ltac Zify.zify_post_hook ::= idtac.

(** ** Characters *)

Lemma to_digit_iff base c d : base <= 36 -> to_digit base c = Some d <-> digit_of base c d.
Proof.
  intros B. unfold to_digit, digit_of.
  destruct ((48 <=? c) && (c <=? 57)) eqn:A; [|destruct ((97 <=? c) && (c <=? 122)) eqn:A2;
    [|destruct ((65 <=? c) && (c <=? 90)) eqn:A3]];
  cbv zeta; match goal with |- context [?x <? base] => destruct (Z.ltb_spec x base) end;
  (split; [intros E; try discriminate; injection E as <-|intros E; try (f_equal)]; try lia).
Qed.

Lemma to_digit_none base c : base <= 36 -> to_digit base c = None <-> forall d, ~ digit_of base c d.
Proof.
  intros B. split.
  - intros E d D. apply to_digit_iff in D; [|assumption]. congruence.
  - intros H. destruct (to_digit base c) eqn:E; [|reflexivity]. exfalso.
    apply to_digit_iff in E; [|assumption]. exact (H _ E).
Qed.

Lemma digit_range base c d : digit_of base c d -> (48 <= c <= 57 \/ 65 <= c <= 90 \/ 97 <= c <= 122).
Proof. unfold digit_of. lia. Qed.
Lemma digit_bound base c d : digit_of base c d -> 0 <= d < base.
Proof. unfold digit_of. lia. Qed.

Ltac dig H := let R := fresh "R" in pose proof (digit_range _ _ _ H) as R;
  unfold is_ws, is_ascii_ws, c_us, c_plus, c_minus, starts_sign in *.

Lemma digit_not_ws base c d : digit_of base c d -> is_ws c = false.
Proof. intros H. dig H. lia. Qed.
Lemma digit_not_aws base c d : digit_of base c d -> is_ascii_ws c = false.
Proof. intros H. dig H. lia. Qed.
Lemma digit_not_us base c d : digit_of base c d -> (c =? c_us) = false.
Proof. intros H. dig H. lia. Qed.
Lemma digit_not_plus base c d : digit_of base c d -> (c =? c_plus) = false.
Proof. intros H. dig H. lia. Qed.
Lemma digit_not_minus base c d : digit_of base c d -> (c =? c_minus) = false.
Proof. intros H. dig H. lia. Qed.

Lemma run_head base t ds : run base t ds -> exists c d t', t = c :: t' /\ digit_of base c d.
Proof. destruct 1; eauto. Qed.
Lemma run_nonempty base t ds : run base t ds -> t <> [] /\ ds <> [].
Proof. destruct 1; split; discriminate. Qed.
Lemma run_last base t ds : run base t ds -> exists t' c d, t = t' ++ [c] /\ digit_of base c d.
Proof.
  induction 1 as [c d D|c d t ds D R [t' [c' [d' [-> D']]]]|c d t ds D R [t' [c' [d' [-> D']]]]].
  - exists [], c, d. auto.
  - exists (c :: t'), c', d'. auto.
  - exists (c :: 95 :: t'), c', d'. auto.
Qed.

(** ** Values *)

Lemma fold_number base ds : forall a,
  fold_left (fun a d => a * base + d) ds a = a * base ^ Z.of_nat (length ds) + number base ds.
Proof.
  induction ds as [|d ds IH]; intros a; cbn [fold_left number length].
  - cbn. ring.
  - rewrite IH. rewrite Nat2Z.inj_succ, Z.pow_succ_r by lia. ring.
Qed.
Lemma be_number base ds : be_value base ds = number base ds.
Proof. unfold be_value. rewrite fold_number. lia. Qed.

Lemma number_app base a b : number base (a ++ b) = number base a * base ^ Z.of_nat (length b) + number base b.
Proof.
  induction a as [|x a IH]; cbn [app number]; [lia|].
  rewrite IH, app_length, Nat2Z.inj_add, Z.pow_add_r by lia. ring.
Qed.

Lemma number_nonneg base ds : 0 < base -> Forall (fun d => 0 <= d < base) ds -> 0 <= number base ds.
Proof.
  intros B. induction 1 as [|d ds D F IH]; cbn; [lia|].
  pose proof (Z.pow_nonneg base (Z.of_nat (length ds))). nia.
Qed.

Lemma run_digits base t ds : run base t ds -> Forall (fun d => 0 <= d < base) ds.
Proof. induction 1; repeat constructor; eauto using digit_bound; eapply digit_bound; eassumption. Qed.

(** ** to_s *)

Lemma digit_char_ok base d : 0 <= d < base -> base <= 36 ->
  digit_of base (digit_char d) d /\ ~ 65 <= digit_char d <= 90.
Proof. intros H B. unfold digit_char, digit_of. destruct (Z.ltb_spec d 10); lia. Qed.

Lemma fmt_loop_ok base : 2 <= base <= 36 -> forall fuel n, 0 <= n < 2 ^ Z.of_nat fuel ->
  exists ds, Forall2 (fun c d => digit_of base c d /\ ~ 65 <= c <= 90) (fmt_loop fuel n base) ds /\
    number base (rev ds) = n /\ (0 < n -> exists d ds', rev ds = d :: ds' /\ d <> 0).
Proof.
  intros B. induction fuel as [|fuel IH]; intros n Hn; cbn [fmt_loop].
  - cbn in Hn. exists []. split; [constructor|]. cbn. lia.
  - destruct (Z.leb_spec n 0); [exists []; split; [constructor|]; cbn; lia|].
    rewrite Nat2Z.inj_succ, Z.pow_succ_r in Hn by lia.
    rewrite Z.rem_mod_nonneg, Z.quot_div_nonneg by lia.
    pose proof (Z.div_mod n base ltac:(lia)) as D. pose proof (Z.mod_pos_bound n base ltac:(lia)) as M.
    destruct (IH (n / base)) as [ds [F [V L]]].
    { split; [apply Z.div_pos; lia|]. apply Z.div_lt_upper_bound; nia. }
    exists (n mod base :: ds). split; [constructor; [apply digit_char_ok; lia|exact F]|].
    cbn [rev]. split.
    + rewrite number_app, V. cbn. lia.
    + intros _. destruct (Z.lt_ge_cases 0 (n / base)) as [P|P].
      * destruct (L P) as [d [ds' [E N]]]. rewrite E. exists d, (ds' ++ [n mod base]). auto.
      * assert (Q0 : n / base = 0) by (pose proof (Z.div_pos n base); lia).
        rewrite Q0 in F. assert (ds = []) as ->.
        { destruct fuel; cbn in F; inversion F; reflexivity. }
        exists (n mod base), []. split; [reflexivity|]. lia.
Qed.

Lemma Forall2_rev {A B} (P : A -> B -> Prop) l m : Forall2 P l m -> Forall2 P (rev l) (rev m).
Proof.
  induction 1; [constructor|]. cbn. apply Forall2_app; [assumption|]. repeat constructor. assumption.
Qed.

Lemma fmt_base_ok n base : 2 <= base <= 36 -> 0 <= n ->
  exists ds, Forall2 (fun c d => digit_of base c d /\ ~ 65 <= c <= 90) (fmt_base n base) ds /\
    number base ds = n /\ fmt_base n base <> [] /\
    (fmt_base n base = [48] \/ hd 0 (fmt_base n base) <> 48).
Proof.
  intros B Hn. unfold fmt_base. destruct (Z.eqb_spec n 0) as [->|N].
  - exists [0]. split; [repeat constructor; unfold digit_of; lia|].
    split; [reflexivity|]. split; [discriminate|now left].
  - destruct (fmt_loop_ok base B (Z.to_nat (Z.log2 n + 1)) n) as [ds [F [V L]]].
    { pose proof (Z.log2_nonneg n). rewrite Z2Nat.id by lia. split; [lia|]. apply log2_bound. lia. }
    exists (rev ds). set (f := fmt_loop _ _ _) in *. clearbody f.
    destruct (L ltac:(lia)) as [d [ds' [E ND]]].
    pose proof (Forall2_rev _ _ _ F) as FR. split; [exact FR|]. split; [exact V|].
    rewrite E in FR. inversion FR as [|c d' t t' [D _] FT EQ]. subst.
    split; [discriminate|]. right. cbn. intros ->. apply ND. unfold digit_of in D. lia.
Qed.

Lemma base_i64 base : 2 <= base <= 36 -> to_i64 (NFix base) = Ok base. Proof. reflexivity. Qed.

Lemma int_to_s_eq self base : 2 <= base <= 36 -> int_to_s self (NFix base) =
  Ok ((if ival self <? 0 then [45] else []) ++ fmt_base (Z.abs (ival self)) base).
Proof.
  intros B. unfold int_to_s. cbn [to_i64 bind].
  destruct (Z.leb_spec 2 base); [|lia]. destruct (Z.leb_spec base 36); [|lia].
  cbn [andb negb]. destruct (ival self <? 0); reflexivity.
Qed.

Lemma int_to_s_ok self base : 2 <= base <= 36 ->
  exists t, int_to_s self (NFix base) = Ok t /\ is_numeral base (ival self) t.
Proof.
  intros B. rewrite int_to_s_eq by assumption. eexists. split; [reflexivity|].
  destruct (fmt_base_ok (Z.abs (ival self)) base B ltac:(lia)) as [ds [F [V [N L]]]].
  exists (fmt_base (Z.abs (ival self)) base), ds. auto.
Qed.

Lemma forall2_run base t ds : t <> [] ->
  Forall2 (fun c d => digit_of base c d /\ ~ 65 <= c <= 90) t ds -> run base t ds.
Proof.
  intros N F. induction F as [|c d t ds [D _] F IH]; [contradiction|].
  destruct F as [|c' d' t ds [D' _] F].
  - now apply run_one.
  - apply run_digit; [assumption|]. apply IH. discriminate.
Qed.

(** ** Parsing a run *)

Lemma big_rest base rest i : 2 <= base <= 36 -> stops base rest ->
  parse_big_loop base rest i (Some false) true = (i, Some false).
Proof.
  intros B S. destruct rest as [|c rest]; [reflexivity|]. destruct S as [ND US].
  cbn [parse_big_loop andb]. destruct (Z.eqb_spec c c_us) as [->|N].
  - specialize (US eq_refl). destruct rest as [|c' rest]; [reflexivity|].
    cbn [parse_big_loop andb].
    apply to_digit_none in US; [|lia]. now rewrite US.
  - apply to_digit_none in ND; [|lia]. now rewrite ND.
Qed.

Lemma big_run base t ds rest : 2 <= base <= 36 -> run base t ds -> stops base rest -> forall i us,
  parse_big_loop base (t ++ rest) i (Some false) us =
  (fold_left (fun a d => a * base + d) ds i, Some false).
Proof.
  intros B R S. induction R as [c d D|c d t ds D R IH|c d t ds D R IH]; intros i us;
    cbn [app parse_big_loop]; rewrite (digit_not_us _ _ _ D), andb_false_r;
    rewrite (proj2 (to_digit_iff base c d ltac:(lia)) D); cbn [fold_left].
  - now rewrite big_rest.
  - apply IH.
  - cbn [parse_big_loop andb]. rewrite Z.eqb_refl. apply IH.
Qed.

Lemma big_run0 base t ds rest : 2 <= base <= 36 -> run base t ds -> stops base rest ->
  parse_big_loop base (t ++ rest) 0 None false = (number base ds, Some false).
Proof.
  intros B R S. pose proof (big_run base t ds rest B R S 0 false) as E.
  rewrite <- be_number. unfold be_value.
  destruct (run_head _ _ _ R) as [c [d [t' [-> D]]]].
  cbn [app parse_big_loop andb] in E |- *.
  now rewrite (digit_not_minus _ _ _ D), (digit_not_plus _ _ _ D).
Qed.

Lemma i64_big radix s : forall i sg us r,
  parse_i64_loop radix s i sg us = Some r -> parse_big_loop radix s i sg us = r.
Proof.
  induction s as [|c s IH]; intros i sg us r; cbn [parse_i64_loop parse_big_loop].
  - intros E. now injection E.
  - destruct (us && (c =? c_us)); [apply IH|].
    assert (K : forall sg', match to_digit radix c with
          | None => Some (i, sg')
          | Some d => match checked (i * radix) with
              | None => None
              | Some m => match checked (m + d) with
                          | None => None
                          | Some i' => parse_i64_loop radix s i' sg' true
                          end
              end
          end = Some r ->
          match to_digit radix c with
          | None => (i, sg')
          | Some d => parse_big_loop radix s (i * radix + d) sg' true
          end = r).
    { intros sg' E. destruct (to_digit radix c) as [d|]; [|now injection E].
      unfold checked in E. destruct (in_i64 (i * radix)); [|discriminate].
      destruct (in_i64 (i * radix + d)); [|discriminate]. now apply IH. }
    destruct sg as [sg|]; [apply K|].
    destruct (c =? c_minus); [apply IH|]. destruct (c =? c_plus); [apply IH|]. apply K.
Qed.

Lemma parse_run base t ds rest neg : 2 <= base <= 36 -> run base t ds -> stops base rest ->
  is_int (parse_int_value (t ++ rest) base neg) (signed neg (number base ds)).
Proof.
  intros B R S. unfold parse_int_value, parse_bigint.
  assert (SK : skip_while is_ascii_ws (t ++ rest) = t ++ rest).
  { destruct (run_head _ _ _ R) as [c [d [t' [-> D]]]]. cbn.
    now rewrite (digit_not_aws _ _ _ D). }
  rewrite SK. pose proof (big_run0 base t ds rest B R S) as E.
  destruct (parse_i64_loop base (t ++ rest) 0 None false) as [[i sg]|] eqn:P.
  - apply i64_big in P. rewrite E in P. injection P as <- <-.
    unfold signed. destruct neg; [|apply vi]. unfold checked.
    destruct (in_i64 _); [apply vi|apply vb].
  - rewrite E. unfold signed. destruct neg; apply vb.
Qed.

(** ** to_i *)

Lemma space_ws c : space c -> is_ws c = true.
Proof. unfold space, is_ws. intros H. lia. Qed.

Lemma skip_all p ws s : Forall (fun c => p c = true) ws -> skip_while p (ws ++ s) = skip_while p s.
Proof. induction 1 as [|c ws H F IH]; [reflexivity|]. cbn. now rewrite H. Qed.

Lemma skip_stop p c s : p c = false -> skip_while p (c :: s) = c :: s.
Proof. intros H. cbn. now rewrite H. Qed.

Lemma spaces_ws ws : Forall space ws -> Forall (fun c => is_ws c = true) ws.
Proof. apply Forall_impl, space_ws. Qed.

Lemma sign_front sg neg c s : is_sign sg neg -> is_ws c = false -> c <> 43 -> c <> 45 ->
  skip_while is_ws (sg ++ c :: s) = sg ++ c :: s /\ strip_sign (sg ++ c :: s) = (c :: s, neg).
Proof.
  intros [[-> ->]|[[-> ->]|[-> ->]]] W P M; cbn [app]; (split; [apply skip_stop; (reflexivity || assumption)|]).
  - cbn. unfold c_minus, c_plus. destruct (Z.eqb_spec c 45); [contradiction|].
    destruct (Z.eqb_spec c 43); [contradiction|]. reflexivity.
  - reflexivity.
  - reflexivity.
Qed.

Lemma radix_ok base : 2 <= base <= 36 -> negb (base =? 0) && negb ((2 <=? base) && (base <=? 36)) = false.
Proof. lia. Qed.

Lemma strip_0_some lo up s r : strip_0 lo up s = Some r -> s = [48; lo] ++ r \/ s = [48; up] ++ r.
Proof.
  destruct s as [|z [|c s]]; try discriminate. cbn.
  destruct (Z.eqb_spec z 48) as [->|]; [|discriminate]. cbn.
  destruct (Z.eqb_spec c lo) as [->|]; cbn; [intros E; injection E as ->; now left|].
  destruct (Z.eqb_spec c up) as [->|]; cbn; [intros E; injection E as ->; now right|discriminate].
Qed.

Lemma strip_none base s : 2 <= base <= 36 -> no_prefix base s -> strip_int_prefix s base = (s, base).
Proof.
  intros B N. unfold strip_int_prefix. destruct (Z.eqb_spec base 0); [lia|]. cbn [orb].
  assert (K : forall b lo up, (base = b -> In [48; lo] (prefixes base) /\ In [48; up] (prefixes base)) ->
     (if base =? b then strip_0 lo up s else None) = None).
  { intros b lo up H. destruct (Z.eqb_spec base b) as [E|]; [|reflexivity].
    destruct (H E) as [H1 H2]. destruct (strip_0 lo up s) eqn:Q; [|reflexivity]. exfalso.
    destruct (strip_0_some _ _ _ _ Q) as [E'|E']; [exact (N _ _ H1 E')|exact (N _ _ H2 E')]. }
  rewrite (K 16), (K 2), (K 10), (K 8); [reflexivity| | | |]; intros ->; cbn; auto.
Qed.

Lemma strip_some base p s : 2 <= base <= 36 -> In p (prefixes base) ->
  strip_int_prefix (p ++ s) base = (s, base).
Proof.
  intros B I. unfold prefixes in I.
  destruct (Z.eqb_spec base 16) as [->|]; [destruct I as [<-|[<-|[]]]; reflexivity|].
  destruct (Z.eqb_spec base 2) as [->|]; [destruct I as [<-|[<-|[]]]; reflexivity|].
  destruct (Z.eqb_spec base 8) as [->|]; [destruct I as [<-|[<-|[]]]; reflexivity|].
  destruct (Z.eqb_spec base 10) as [->|]; [destruct I as [<-|[<-|[]]]; reflexivity|].
  destruct I.
Qed.

Lemma prefix_head base p : In p (prefixes base) -> exists c, p = [48; c].
Proof.
  unfold prefixes. repeat (destruct (_ =? _); [intros [<-|[<-|[]]]; eauto|]). intros [].
Qed.

Lemma to_i_run base ws sg neg t ds rest : 2 <= base <= 36 -> Forall space ws -> is_sign sg neg ->
  run base t ds -> stops base rest -> no_prefix base (t ++ rest) ->
  returns (str_to_i (ws ++ sg ++ t ++ rest) (NFix base)) (signed neg (number base ds)).
Proof.
  intros B W SG R S NP. unfold str_to_i. cbn [to_i64 bind]. rewrite radix_ok by assumption.
  rewrite skip_all by now apply spaces_ws.
  pose proof (parse_run base t ds rest neg B R S) as P.
  destruct (run_head _ _ _ R) as [c [d [t' [-> D]]]]. cbn [app] in *.
  destruct (sign_front sg neg c (t' ++ rest) SG (digit_not_ws _ _ _ D)) as [E1 E2];
    [dig D; lia|dig D; lia|].
  rewrite E1, E2. unfold starts_sign at 1.
  rewrite (digit_not_plus _ _ _ D), (digit_not_minus _ _ _ D). cbn [orb].
  rewrite strip_none by assumption. unfold starts_sign.
  rewrite (digit_not_plus _ _ _ D), (digit_not_minus _ _ _ D). cbn [orb].
  eexists. split; [reflexivity|]. exact P.
Qed.

Lemma to_i_prefix base ws sg neg p t ds rest : 2 <= base <= 36 -> Forall space ws -> is_sign sg neg ->
  In p (prefixes base) -> run base t ds -> stops base rest ->
  returns (str_to_i (ws ++ sg ++ p ++ t ++ rest) (NFix base)) (signed neg (number base ds)).
Proof.
  intros B W SG I R S. unfold str_to_i. cbn [to_i64 bind]. rewrite radix_ok by assumption.
  rewrite skip_all by now apply spaces_ws.
  pose proof (parse_run base t ds rest neg B R S) as P.
  pose proof (strip_some base p (t ++ rest) B I) as ST.
  destruct (prefix_head _ _ I) as [pc ->]. cbn [app] in *.
  destruct (sign_front sg neg 48 (pc :: t ++ rest) SG eq_refl) as [E1 E2]; [discriminate|discriminate|].
  rewrite E1, E2. unfold starts_sign at 1. cbn [orb Z.eqb c_plus c_minus Pos.eqb].
  rewrite ST.
  destruct (run_head _ _ _ R) as [c [d [t' [-> D]]]]. cbn [app] in *. unfold starts_sign.
  rewrite (digit_not_plus _ _ _ D), (digit_not_minus _ _ _ D). cbn [orb].
  eexists. split; [reflexivity|]. exact P.
Qed.

(** No digit at all. *)
Lemma to_i_none base ws sg neg rest : 2 <= base <= 36 -> Forall space ws -> is_sign sg neg ->
  (match rest with [] => True | c :: _ => is_ws c = false /\ (forall d, ~ digit_of base c d) end) ->
  (sg = [] -> match rest with [] => True | c :: _ => c <> 43 /\ c <> 45 end) ->
  no_prefix base rest ->
  returns (str_to_i (ws ++ sg ++ rest) (NFix base)) 0.
Proof.
  intros B W SG H HS NP. unfold str_to_i. cbn [to_i64 bind]. rewrite radix_ok by assumption.
  rewrite skip_all by now apply spaces_ws.
  assert (V0 : forall v, v = value_integer 0 -> returns (Ok v) 0).
  { intros v ->. eexists. split; [reflexivity|apply vi]. }
  assert (Z0 : forall r ng, r = rest -> starts_sign r = false -> parse_int_value r base ng = value_integer 0).
  { intros r ng -> Q. unfold parse_int_value. destruct rest as [|c rest].
    - cbn. destruct ng; reflexivity.
    - destruct H as [Hw Hd]. apply to_digit_none in Hd; [|lia].
      assert (A : is_ascii_ws c = false) by (unfold is_ws, is_ascii_ws in *; lia).
      rewrite skip_stop by assumption. unfold starts_sign in Q. cbn [parse_i64_loop andb].
      apply orb_false_iff in Q. destruct Q as [Q1 Q2]. rewrite Q2, Q1, Hd.
      destruct ng; reflexivity. }
  assert (TL : forall r ng, r = rest ->
    returns (if starts_sign r then Ok (value_integer 0) else
      let '(s, radix) := strip_int_prefix r base in
      if starts_sign s then Ok (value_integer 0) else Ok (parse_int_value s radix ng)) 0).
  { intros r ng ->. destruct (starts_sign rest) eqn:Q; [now apply V0|].
    rewrite strip_none by assumption. rewrite Q. apply V0. now apply Z0. }
  destruct SG as [[-> ->]|[[-> ->]|[-> ->]]]; cbn [app].
  - destruct rest as [|c rest].
    + cbn [skip_while strip_sign]. apply (TL [] false eq_refl).
    + rewrite skip_stop by apply H. cbn [strip_sign].
      destruct (HS eq_refl) as [P M]. unfold c_minus, c_plus.
      destruct (Z.eqb_spec c 45); [contradiction|]. destruct (Z.eqb_spec c 43); [contradiction|].
      apply (TL (c :: rest) false eq_refl).
  - apply (TL rest false eq_refl).
  - apply (TL rest true eq_refl).
Qed.

(** ** Integer() *)

Lemma trim_mid ws m ws' a b m' : Forall (fun c => is_ws c = true) ws -> Forall (fun c => is_ws c = true) ws' ->
  m = a :: m' -> is_ws a = false -> (exists m'', m = m'' ++ [b]) -> is_ws b = false ->
  trim (ws ++ m ++ ws') = m.
Proof.
  intros W W' E A [m'' E'] B. unfold trim. rewrite skip_all by assumption.
  assert (S1 : skip_while is_ws (m ++ ws') = m ++ ws') by (rewrite E; cbn [app]; now apply skip_stop).
  rewrite S1, rev_app_distr, skip_all by now apply Forall_rev.
  assert (S2 : skip_while is_ws (rev m) = rev m).
  { rewrite E', rev_app_distr. cbn [rev app]. now apply skip_stop. }
  rewrite S2. apply rev_involutive.
Qed.

Lemma collect_run base t ds : 2 <= base <= 36 -> run base t ds ->
  forall prev, collect base t prev = Some ds.
Proof.
  intros B R. induction R as [c d D|c d t ds D R IH|c d t ds D R IH]; intros prev;
    cbn [collect]; rewrite (digit_not_us _ _ _ D), (proj2 (to_digit_iff base c d ltac:(lia)) D).
  - reflexivity.
  - now rewrite IH.
  - rewrite Z.eqb_refl. cbn [negb orb].
    destruct (run_nonempty _ _ _ R) as [N _]. destruct t as [|x t]; [contradiction|].
    now rewrite IH.
Qed.

Lemma collect_sound base t : 2 <= base <= 36 -> forall ds prev,
  collect base t prev = Some ds ->
  (t = [] /\ ds = []) \/ run base t ds \/ (prev = true /\ exists t', t = 95 :: t' /\ run base t' ds).
Proof.
  intros B. induction t as [|c t IH]; intros ds prev; cbn [collect].
  - intros E. injection E as <-. auto.
  - destruct (Z.eqb_spec c c_us) as [->|N].
    + destruct (negb prev || _) eqn:Q; [discriminate|]. apply orb_false_iff in Q. destruct Q as [Q1 Q2].
      intros E. right. right. split; [now destruct prev|]. exists t. split; [reflexivity|].
      destruct (IH _ _ E) as [[-> _]|[R|[F _]]]; [discriminate|assumption|discriminate].
    + destruct (to_digit base c) as [d|] eqn:D; [|discriminate]. apply to_digit_iff in D; [|lia].
      destruct (collect base t true) as [ds'|] eqn:E; [|discriminate]. cbn. intros E'. injection E' as <-.
      right. left. destruct (IH _ _ E) as [[-> ->]|[R|[_ [t' [-> R]]]]].
      * now apply run_one.
      * now apply run_digit.
      * now apply run_us.
Qed.

Lemma kernel_finish base ds (neg : bool) : 2 <= base <= 36 -> Forall (fun d => 0 <= d < base) ds ->
  is_int (if in_i64 (be_value base ds) then value_integer (if neg then wrap64 (- be_value base ds) else be_value base ds)
          else value_bigint (if neg then - be_value base ds else be_value base ds))
         (signed neg (number base ds)).
Proof.
  intros B F. rewrite be_number. pose proof (number_nonneg base ds ltac:(lia) F) as P.
  unfold signed. set (n := number base ds) in *. clearbody n.
  destruct (in_i64 n) eqn:I; [|destruct neg; apply vb].
  destruct neg; [|apply vi]. rewrite wrap64_id; [apply vi|]. unfold in_i64, I64_MIN, I64_MAX in I. pows; lia.
Qed.

Lemma prefix_base_some base p s : In p (prefixes base) -> prefix_base (p ++ s) = Some (base, s).
Proof.
  unfold prefixes. intros I.
  destruct (Z.eqb_spec base 16) as [->|]; [destruct I as [<-|[<-|[]]]; reflexivity|].
  destruct (Z.eqb_spec base 2) as [->|]; [destruct I as [<-|[<-|[]]]; reflexivity|].
  destruct (Z.eqb_spec base 8) as [->|]; [destruct I as [<-|[<-|[]]]; reflexivity|].
  destruct (Z.eqb_spec base 10) as [->|]; [destruct I as [<-|[<-|[]]]; reflexivity|].
  destruct I.
Qed.

Lemma prefix_base_inv s b s' : prefix_base s = Some (b, s') ->
  exists p, In p (prefixes b) /\ s = p ++ s'.
Proof.
  destruct s as [|z [|c s]]; try discriminate. cbn [prefix_base].
  destruct (Z.eqb_spec z 48) as [->|]; [|discriminate].
  repeat match goal with |- context [?x =? ?y] => is_var x; destruct (Z.eqb_spec x y) as [->|] end;
    cbn [orb]; intros E; try discriminate; injection E as <- <-;
    match goal with |- exists _, _ /\ _ :: ?a :: _ = _ => exists [48; a] end; split; cbn; auto.
Qed.

(** The core: optional prefix, then a run; nothing else. *)
Lemma kernel_core given base s t p neg c r ds :
  trim s = c :: r -> 
  (if c =? c_plus then (r, false) else if c =? c_minus then (r, true) else (c :: r, false)) = (p ++ t, neg) ->
  2 <= base <= 36 -> detect_base (p ++ t) given = Ok (base, t) -> run base t ds ->
  returns (kernel_integer s given) (signed neg (number base ds)).
Proof.
  intros T E B DB R. unfold kernel_integer. rewrite T. rewrite E.
  destruct (run_nonempty _ _ _ R) as [NT NDS].
  destruct (p ++ t) as [|x l] eqn:PT; [apply app_eq_nil in PT; tauto|].
  rewrite DB. cbn [bind]. rewrite (collect_run base t ds B R false).
  destruct t as [|tc t']; [contradiction|]. destruct ds as [|d ds]; [contradiction|].
  eexists. split; [reflexivity|]. apply kernel_finish; [assumption|]. eapply run_digits. eassumption.
Qed.

Lemma kernel_text given base ws sg neg p t ds ws' :
  2 <= base <= 36 -> Forall space ws -> Forall space ws' -> is_sign sg neg ->
  (p = [] \/ In p (prefixes base)) -> run base t ds -> detect_base (p ++ t) given = Ok (base, t) ->
  returns (kernel_integer (ws ++ sg ++ p ++ t ++ ws') given) (signed neg (number base ds)).
Proof.
  intros B W W' SG P R DB.
  destruct (run_last _ _ _ R) as [tl [lc [ld [EL LD]]]].
  assert (HD : exists a l, p ++ t = a :: l /\ is_ws a = false /\ a <> 43 /\ a <> 45).
  { destruct P as [->|I].
    - destruct (run_head _ _ _ R) as [a [d [t' [-> D]]]]. exists a, t'. cbn.
      split; [reflexivity|]. split; [exact (digit_not_ws _ _ _ D)|]. dig D. lia.
    - destruct (prefix_head _ _ I) as [x ->]. eexists 48, _. cbn.
      split; [reflexivity|]. split; [reflexivity|]. lia. }
  destruct HD as [a [l [HE [HW [H3 H5]]]]].
  assert (T : trim (ws ++ sg ++ p ++ t ++ ws') = sg ++ p ++ t).
  { replace (ws ++ sg ++ p ++ t ++ ws') with (ws ++ (sg ++ p ++ t) ++ ws') by (now rewrite <- !app_assoc).
    assert (exists m', sg ++ p ++ t = hd 0 (sg ++ p ++ t) :: m' /\ is_ws (hd 0 (sg ++ p ++ t)) = false) as [m' [E Wm]].
    { rewrite HE. destruct SG as [[-> ->]|[[-> ->]|[-> ->]]]; cbn; eauto. }
    eapply trim_mid; [now apply spaces_ws|now apply spaces_ws|exact E|exact Wm| |exact (digit_not_ws _ _ _ LD)].
    exists (sg ++ p ++ tl). rewrite EL. now rewrite <- !app_assoc. }
  rewrite HE in T.
  destruct SG as [[-> ->]|[[-> ->]|[-> ->]]]; cbn [app] in T |- *.
  - eapply (kernel_core given base _ t p false); [exact T| |exact B|exact DB|exact R].
    rewrite HE. unfold c_plus, c_minus. destruct (Z.eqb_spec a 43); [contradiction|].
    destruct (Z.eqb_spec a 45); [contradiction|]. reflexivity.
  - eapply (kernel_core given base _ t p false); [exact T| |exact B|exact DB|exact R].
    rewrite HE. reflexivity.
  - eapply (kernel_core given base _ t p true); [exact T| |exact B|exact DB|exact R].
    rewrite HE. reflexivity.
Qed.

(** Nothing outside the grammar is accepted. *)
Lemma skip_split p s : exists ws, s = ws ++ skip_while p s /\ Forall (fun c => p c = true) ws.
Proof.
  induction s as [|c s [ws [E F]]]; [exists []; auto|]. cbn. destruct (p c) eqn:Q.
  - exists (c :: ws). cbn. split; [now f_equal|]. now constructor.
  - exists []. auto.
Qed.

Lemma trim_split s : exists ws ws', s = ws ++ trim s ++ ws' /\
  Forall (fun c => is_ws c = true) ws /\ Forall (fun c => is_ws c = true) ws'.
Proof.
  destruct (skip_split is_ws s) as [ws [E F]]. unfold trim.
  destruct (skip_split is_ws (rev (skip_while is_ws s))) as [ws' [E' F']].
  set (x := skip_while is_ws s) in *. clearbody x.
  exists ws, (rev ws'). split; [|split; [assumption|now apply Forall_rev]].
  rewrite E. f_equal. rewrite <- (rev_involutive x). rewrite E' at 1. rewrite rev_app_distr.
  now rewrite (rev_involutive x).
Qed.

Lemma detect_sound rest given b t : 2 <= given <= 36 -> detect_base rest given = Ok (b, t) ->
  b = given /\ exists p, (p = [] \/ In p (prefixes given)) /\ rest = p ++ t.
Proof.
  intros G. unfold detect_base. destruct (prefix_base rest) as [[b' s']|] eqn:P.
  - destruct (Z.eqb_spec given 0); [lia|]. cbn [orb].
    destruct (Z.eqb_spec given b') as [<-|]; [|discriminate]. intros E. injection E as <- <-.
    split; [reflexivity|]. destruct (prefix_base_inv _ _ _ P) as [p [I E]]. eauto.
  - destruct (Z.eqb_spec given 0); [lia|]. intros E. injection E as <- <-.
    split; [reflexivity|]. exists []. auto.
Qed.

Lemma kernel_sound s base v : 2 <= base <= 36 -> kernel_integer s base = Ok v ->
  exists ws sg neg p t ds ws', s = ws ++ sg ++ p ++ t ++ ws' /\
    Forall (fun c => is_ws c = true) ws /\ Forall (fun c => is_ws c = true) ws' /\ is_sign sg neg /\
    (p = [] \/ In p (prefixes base)) /\ run base t ds /\ is_int v (signed neg (number base ds)).
Proof.
  intros B. unfold kernel_integer.
  destruct (trim_split s) as [ws [ws' [ES [W W']]]].
  destruct (trim s) as [|c r] eqn:T; [discriminate|].
  assert (SGN : exists sg neg rest,
     (if c =? c_plus then (r, false) else if c =? c_minus then (r, true) else (c :: r, false)) = (rest, neg) /\
     is_sign sg neg /\ c :: r = sg ++ rest).
  { destruct (Z.eqb_spec c c_plus) as [->|]; [exists [43], false, r; unfold is_sign; (split; [reflexivity|]); split; [auto 6|reflexivity]|].
    destruct (Z.eqb_spec c c_minus) as [->|]; [exists [45], true, r; unfold is_sign; (split; [reflexivity|]); split; [auto 6|reflexivity]|].
    exists [], false, (c :: r). unfold is_sign. auto 8. }
  destruct SGN as [sg [neg [rest [E [SG EC]]]]]. rewrite E. clear E.
  destruct rest as [|x l] eqn:RE; [discriminate|]. rewrite <- RE in *. clear RE x l.
  destruct (detect_base rest base) as [[b t]|] eqn:DB; [|discriminate]. cbn [bind].
  destruct (detect_sound _ _ _ _ B DB) as [-> [p [P EP]]].
  destruct t as [|tc t']; [discriminate|].
  destruct (collect base (tc :: t') false) as [ds|] eqn:C; [|discriminate].
  destruct ds as [|d ds]; [discriminate|]. intros EV. injection EV as <-.
  destruct (collect_sound base _ B _ _ C) as [[F _]|[R|[F _]]]; [discriminate| |discriminate].
  exists ws, sg, neg, p, (tc :: t'), (d :: ds), ws'.
  split; [rewrite ES, EC, EP; now rewrite <- !app_assoc|].
  do 5 (split; [assumption|]).
  apply kernel_finish; [assumption|]. eapply run_digits. eassumption.
Qed.

(** ** Round trips *)

Lemma body_no_prefix base body : body <> [] -> body = [48] \/ hd 0 body <> 48 -> no_prefix base (body ++ []).
Proof.
  intros N H p r I E. rewrite app_nil_r in E. destruct (prefix_head _ _ I) as [c ->].
  destruct H as [->|H]; [discriminate|]. subst body. apply H. reflexivity.
Qed.

Lemma numeral_sign v : is_sign (if v <? 0 then [45] else []) (v <? 0).
Proof. unfold is_sign. destruct (v <? 0); auto. Qed.
Lemma signed_abs v : signed (v <? 0) (Z.abs v) = v.
Proof. unfold signed. destruct (Z.ltb_spec v 0); lia. Qed.

Lemma roundtrip_to_i self base t : 2 <= base <= 36 -> int_to_s self (NFix base) = Ok t ->
  returns (str_to_i t (NFix base)) (ival self).
Proof.
  intros B E. destruct (int_to_s_ok self base B) as [t' [E' [body [ds [-> [F [V [N L]]]]]]]].
  rewrite E in E'. injection E' as ->.
  pose proof (to_i_run base [] _ _ body ds [] B (Forall_nil _) (numeral_sign (ival self))
    (forall2_run base body ds N F) I (body_no_prefix base body N L)) as K.
  rewrite V, signed_abs, app_nil_r in K. exact K.
Qed.

Lemma roundtrip_integer self base t : 2 <= base <= 36 -> int_to_s self (NFix base) = Ok t ->
  returns (kernel_integer_base t (NFix base)) (ival self).
Proof.
  intros B E. destruct (int_to_s_ok self base B) as [t' [E' [body [ds [-> [F [V [N L]]]]]]]].
  rewrite E in E'. injection E' as ->.
  unfold kernel_integer_base. cbn [to_i64 bind].
  replace ((base <? 0) || (36 <? base) || (base =? 1)) with false by lia.
  assert (DB : detect_base ([] ++ body) base = Ok (base, body)).
  { unfold detect_base. cbn [app]. destruct (prefix_base body) as [[b s']|] eqn:P.
    - exfalso. destruct (prefix_base_inv _ _ _ P) as [p [I EP]].
      apply (body_no_prefix b body N L p s' I). now rewrite app_nil_r.
    - destruct (Z.eqb_spec base 0); [lia|]. reflexivity. }
  pose proof (kernel_text base base [] _ _ [] body ds [] B (Forall_nil _) (Forall_nil _)
    (numeral_sign (ival self)) (or_introl eq_refl) (forall2_run base body ds N F) DB) as K.
  rewrite V, signed_abs, app_nil_r in K. exact K.
Qed.

(** Base 0 (and no base): a numeral in decimal comes back as well. *)
Lemma roundtrip_auto self t : int_to_s self (NFix 10) = Ok t ->
  returns (kernel_integer_base t (NFix 0)) (ival self) /\ returns (str_to_i t (NFix 0)) (ival self).
Proof.
  intros E. destruct (int_to_s_ok self 10 ltac:(lia)) as [t' [E' [body [ds [-> [F [V [N L]]]]]]]].
  rewrite E in E'. injection E' as ->. pose proof (forall2_run 10 body ds N F) as R. split.
  - unfold kernel_integer_base. cbn [to_i64 bind orb Z.ltb Z.eqb Z.compare].
    assert (DB : detect_base ([] ++ body) 0 = Ok (10, body)).
    { unfold detect_base. cbn [app]. destruct (prefix_base body) as [[b s']|] eqn:P.
      - exfalso. destruct (prefix_base_inv _ _ _ P) as [p [I EP]].
        apply (body_no_prefix b body N L p s' I). now rewrite app_nil_r.
      - cbn [Z.eqb]. destruct body as [|z [|c body]]; try reflexivity.
        destruct L as [L|L]; [discriminate|]. cbn in L.
        destruct (Z.eqb_spec z 48); [contradiction|]. reflexivity. }
    pose proof (kernel_text 0 10 [] _ _ [] body ds [] ltac:(lia) (Forall_nil _) (Forall_nil _)
      (numeral_sign (ival self)) (or_introl eq_refl) R DB) as K.
    rewrite V, signed_abs, app_nil_r in K. exact K.
  - unfold str_to_i. cbn [to_i64 bind]. cbn [Z.eqb negb andb].
    pose proof (parse_run 10 body ds [] (ival self <? 0) ltac:(lia) R I) as P.
    rewrite app_nil_r, V, signed_abs in P.
    destruct (run_head _ _ _ R) as [c [d [l [EB D]]]]. rewrite EB in *. clear EB body.
    destruct (sign_front _ _ c l (numeral_sign (ival self)) (digit_not_ws _ _ _ D)) as [E1 E2];
      [dig D; lia|dig D; lia|].
    rewrite E1, E2. unfold starts_sign at 1.
    rewrite (digit_not_plus _ _ _ D), (digit_not_minus _ _ _ D). cbn [orb].
    assert (SP : strip_int_prefix (c :: l) 0 = (c :: l, 10)).
    { assert (SN : forall lo up, strip_0 lo up (c :: l) = None).
      { intros lo up. destruct l as [|x l]; [reflexivity|]. cbn.
        destruct L as [L|L]; [discriminate|]. cbn in L. destruct (Z.eqb_spec c 48); [contradiction|]. reflexivity. }
      unfold strip_int_prefix. cbn [Z.eqb orb]. rewrite !SN.
      destruct l as [|x l]; [reflexivity|].
      destruct L as [L|L]; [discriminate|]. cbn in L. destruct (Z.eqb_spec c 48); [contradiction|]. reflexivity. }
    rewrite SP. unfold starts_sign.
    rewrite (digit_not_plus _ _ _ D), (digit_not_minus _ _ _ D). cbn [orb].
    eexists. split; [reflexivity|]. exact P.
Qed.

(** ** Integer() without reference to [detect_base] *)

Lemma no_prefix_none t : (forall b, no_prefix b t) -> prefix_base t = None.
Proof.
  intros H. destruct (prefix_base t) as [[b s]|] eqn:P; [|reflexivity]. exfalso.
  destruct (prefix_base_inv _ _ _ P) as [p [I E]]. exact (H b p s I E).
Qed.

Lemma integer_given base ws sg neg p t ds ws' :
  2 <= base <= 36 -> Forall space ws -> Forall space ws' -> is_sign sg neg ->
  (p = [] /\ (forall b, no_prefix b t)) \/ In p (prefixes base) -> run base t ds ->
  returns (kernel_integer_base (ws ++ sg ++ p ++ t ++ ws') (NFix base)) (signed neg (number base ds)).
Proof.
  intros B W W' SG P R. unfold kernel_integer_base. cbn [to_i64 bind].
  replace ((base <? 0) || (36 <? base) || (base =? 1)) with false by lia.
  apply kernel_text; try assumption; [tauto|]. unfold detect_base.
  destruct P as [[-> NP]|I].
  - cbn [app]. rewrite (no_prefix_none _ NP). destruct (Z.eqb_spec base 0); [lia|]. reflexivity.
  - rewrite (prefix_base_some base p t I), Z.eqb_refl, orb_true_r. reflexivity.
Qed.

Lemma integer_auto base ws sg neg p t ds ws' :
  2 <= base <= 36 -> Forall space ws -> Forall space ws' -> is_sign sg neg -> run base t ds ->
  In p (prefixes base) \/
  (base = 10 /\ p = [] /\ (t = [48] \/ hd 0 t <> 48)) ->
  returns (kernel_integer_base (ws ++ sg ++ p ++ t ++ ws') (NFix 0)) (signed neg (number base ds)).
Proof.
  intros B W W' SG R P. unfold kernel_integer_base. cbn [to_i64 bind orb Z.ltb Z.eqb Z.compare].
  apply kernel_text; try assumption; [tauto|]. unfold detect_base.
  destruct P as [I|[-> [-> L]]].
  - rewrite (prefix_base_some base p t I). reflexivity.
  - cbn [app]. destruct (run_nonempty _ _ _ R) as [N _].
    assert (NP : prefix_base t = None).
    { apply no_prefix_none. intros b p' r I' E. apply (body_no_prefix b t N L p' r I'). now rewrite app_nil_r. }
    rewrite NP. cbn [Z.eqb]. destruct t as [|z [|c t]]; try reflexivity.
    destruct L as [L|L]; [discriminate|]. cbn in L.
    destruct (Z.eqb_spec z 48); [contradiction|]. reflexivity.
Qed.

(** A leading zero makes it octal. *)
Lemma octal_head t ds : run 8 t ds -> exists c t', t = c :: t' /\ 48 <= c <= 55.
Proof.
  intros R. destruct (run_head _ _ _ R) as [c [d [t' [-> D]]]]. exists c, t'. split; [reflexivity|].
  unfold digit_of in D. lia.
Qed.

Lemma integer_octal ws sg neg t ds ws' :
  Forall space ws -> Forall space ws' -> is_sign sg neg -> run 8 t ds ->
  returns (kernel_integer_base (ws ++ sg ++ 48 :: t ++ ws') (NFix 0)) (signed neg (number 8 ds)).
Proof.
  intros W W' SG R. unfold kernel_integer_base. cbn [to_i64 bind orb Z.ltb Z.eqb Z.compare].
  destruct (run_last _ _ _ R) as [tl [lc [ld [EL LD]]]].
  assert (T : trim (ws ++ sg ++ 48 :: t ++ ws') = sg ++ 48 :: t).
  { replace (ws ++ sg ++ 48 :: t ++ ws') with (ws ++ (sg ++ 48 :: t) ++ ws')
      by (rewrite <- !app_assoc; reflexivity).
    assert (exists m', sg ++ 48 :: t = hd 0 (sg ++ 48 :: t) :: m' /\ is_ws (hd 0 (sg ++ 48 :: t)) = false) as [m' [E Wm]].
    { destruct SG as [[-> ->]|[[-> ->]|[-> ->]]]; cbn; eauto. }
    eapply trim_mid; [now apply spaces_ws|now apply spaces_ws|exact E|exact Wm| |exact (digit_not_ws _ _ _ LD)].
    exists (sg ++ 48 :: tl). rewrite EL. now rewrite <- !app_assoc. }
  assert (DB : detect_base ([48] ++ t) 0 = Ok (8, t)).
  { destruct (octal_head _ _ R) as [c [t' [-> C]]]. unfold detect_base. cbn [app prefix_base Z.eqb Pos.eqb].
    replace ((c =? 120) || (c =? 88)) with false by lia. replace ((c =? 98) || (c =? 66)) with false by lia.
    replace ((c =? 111) || (c =? 79)) with false by lia. replace ((c =? 100) || (c =? 68)) with false by lia.
    replace (true && ((48 <=? c) && (c <=? 57))) with true by lia. reflexivity. }
  destruct SG as [[-> ->]|[[-> ->]|[-> ->]]]; cbn [app] in T |- *.
  - eapply (kernel_core 0 8 _ t [48] false); [exact T|reflexivity|lia|exact DB|exact R].
  - eapply (kernel_core 0 8 _ t [48] false); [exact T|reflexivity|lia|exact DB|exact R].
  - eapply (kernel_core 0 8 _ t [48] true); [exact T|reflexivity|lia|exact DB|exact R].
Qed.
