(** The reader rebuilds what the writer wrote. *)
From Coq Require Import String Ascii ZArith List Bool Lia.
From Verif Require Import Utf8Spec Utf8Model Utf8Proofs IdModel EncModel MarshalModel MarshalSpec MarshalProofs MarshalWProofs.
From Verif Require ValueModel.
Import ListNotations.
Open Scope Z_scope.
Local Arguments ascii : simpl never.
Local Arguments bs : simpl never.
Local Arguments Z.pow : simpl never.
Local Arguments w_bignum : simpl never.
Local Opaque w_fixnum.

(** * Loops *)
Definition loops {A} (n : Z) (acc : A) (f : A -> R A) (out : list Z) (s : tri) (b : A) (s' : tri) : Prop :=
  forall k, n <= Z.of_nat k -> reads (times_fuel k n acc f) out s b s'.
Lemma loops_nil {A} (acc : A) f s : loops 0 acc f [] s acc s.
Proof. intros k _. destruct k; cbn [times_fuel]; apply reads_ret. Qed.
Lemma loops_cons {A} n (acc a b : A) f o1 o2 s s1 s2 : 0 <= n ->
  reads (f acc) o1 s a s1 -> loops n a f o2 s1 b s2 -> loops (n + 1) acc f (o1 ++ o2) s b s2.
Proof.
  intros h0 h1 h2 k hk. destruct k as [|k]; [lia|]. cbn [times_fuel].
  destruct (Z.leb_spec (n + 1) 0); [lia|]. eapply reads_bind; [exact h1|].
  replace (n + 1 - 1) with n by lia. apply h2. lia.
Qed.
Lemma loops_times {A} n (acc b : A) f out s s' : n <= len out -> loops n acc f out s b s' -> reads (times n acc f) out s b s'.
Proof.
  intros hn h p tl hp hl. unfold times. change (rest (st p (out ++ tl) s)) with (out ++ tl).
  apply h; auto. rewrite app_length. lia.
Qed.

Lemma reads_tag {A} (k : Z -> R A) b o s a s' : reads (k b) o s a s' -> reads (bind read_byte k) (b :: o) s a s'.
Proof. intros hk. exact (reads_bind read_byte k [b] o s s s' b a (reads_byte b s) hk). Qed.

(** * Positions *)
Fixpoint index (a : nat) (l : list nat) : nat :=
  match l with [] => O | x :: t => if Nat.eqb a x then O else S (index a t) end.
Lemma index_in a l : In a l -> nth_error l (index a l) = Some a.
Proof.
  induction l as [|x l IH]; [intros []|]. cbn [index]. destruct (Nat.eqb_spec a x) as [->|n]; [reflexivity|].
  intros [->|hi]; [congruence|]. cbn. auto.
Qed.
Lemma index_app a l r : In a l -> index a (l ++ r) = index a l.
Proof.
  induction l as [|x l IH]; [intros []|]. cbn [index app]. destruct (Nat.eqb_spec a x) as [->|n]; [reflexivity|].
  intros [->|hi]; [congruence|]. now rewrite IH.
Qed.
Lemma index_fresh a l r : ~ In a l -> index a (l ++ a :: r) = length l.
Proof.
  induction l as [|x l IH]; cbn [index app length]; intros hn.
  - now rewrite Nat.eqb_refl.
  - destruct (Nat.eqb_spec a x) as [->|n]; [destruct hn; now left|]. rewrite IH; auto. intros hi. apply hn. now right.
Qed.
Lemma index_inj a b l : In a l -> In b l -> index a l = index b l -> a = b.
Proof. intros ha hb e. apply index_in in ha, hb. rewrite e in ha. congruence. Qed.

(** * Floats *)
Lemma land63 b : 0 <= b < 2 ^ 64 -> Z.land b 0x7fffffffffffffff = b mod 2 ^ 63.
Proof. intros. change 0x7fffffffffffffff with (Z.ones 63). apply Z.land_ones. lia. Qed.
Lemma top_exp b : float_word b -> 0x7ff0000000000000 <= Z.land b 0x7fffffffffffffff -> ValueModel.enc_flonum b = None.
Proof.
  intros hb hm. unfold float_word in hb. rewrite land63 in hm by auto. unfold ValueModel.enc_flonum.
  unfold ValueModel.f64_eq_zero. destruct (Z.eqb_spec b 0) as [->|n0]; [exfalso; revert hm; now vm_compute|].
  destruct (Z.eqb_spec b (2 ^ 63)) as [->|n1]; [exfalso; revert hm; now vm_compute|]. cbn [orb].
  assert (E : Z.land (Z.shiftr b 60) 7 = 7).
  { change 7 with (Z.ones 3) at 1. rewrite Z.land_ones, Z.shiftr_div_pow2 by lia.
    change (2 ^ 63) with 9223372036854775808 in *. change (2 ^ 60) with 1152921504606846976.
    change (2 ^ 64) with 18446744073709551616 in *. change (2 ^ 3) with 8.
    assert (b mod 9223372036854775808 / 1152921504606846976 = (b / 1152921504606846976) mod 8) as <-.
    { clear. pose proof (Z.rem_mul_r b 1152921504606846976 8 ltac:(lia) ltac:(lia)) as Q.
      change (1152921504606846976 * 8) with 9223372036854775808 in Q. rewrite Q.
      rewrite (Z.mul_comm 1152921504606846976), Z.div_add by lia. rewrite Z.div_small; [lia|].
      apply Z.mod_pos_bound. lia. }
    symmetry. apply Z.div_unique with (b mod 9223372036854775808 - 7 * 1152921504606846976); [|lia].
    left. pose proof (Z.mod_pos_bound b 9223372036854775808 ltac:(lia)). lia. }
  now rewrite E.
Qed.
Lemma nan_boxed b : float_word b -> f_nan b = true -> ValueModel.enc_flonum b = None.
Proof. intros h1 h2. unfold f_nan in h2. apply Z.ltb_lt in h2. apply top_exp; auto. lia. Qed.
Lemma inf_cases b : float_word b -> f_inf b = true -> b = if ValueModel.f64_sign_negative b then NEG_INF else INF.
Proof.
  intros h1 h2. unfold f_inf in h2. apply Z.eqb_eq in h2. rewrite land63 in h2 by auto. unfold float_word in h1.
  unfold ValueModel.f64_sign_negative. rewrite Z.testbit_odd, Z.shiftr_div_pow2 by lia.
  pose proof (Z.div_mod b (2 ^ 63) ltac:(lia)) as D. rewrite h2 in D. unfold NEG_INF, INF.
  change (2 ^ 64) with 18446744073709551616 in *. change (2 ^ 63) with 9223372036854775808 in *.
  set (q := b / 9223372036854775808) in *. assert (q = 0 \/ q = 1) as [Q|Q] by lia; rewrite Q in *; cbn [Z.odd]; lia.
Qed.
Lemma zero_cases b : ValueModel.f64_eq_zero b = true -> b = if ValueModel.f64_sign_negative b then NEG_ZERO else 0.
Proof.
  unfold ValueModel.f64_eq_zero. intros h. apply orb_true_iff in h as [h|h]; apply Z.eqb_eq in h; subst; reflexivity.
Qed.

Lemma upto_id l : Forall (fun x => 0 < x < 128) l -> upto_nul l = l.
Proof. induction 1 as [|x l hx hl IH]; cbn; auto. destruct (Z.eqb_spec x 0); [lia|]. now rewrite IH. Qed.

Section Sim.
Variables (fmt : Z -> list Z) (prs : list Z -> option Z) (plain sub : list Z -> bool) (deep : heap -> nat -> nat -> bool).
Hypothesis TX : text_ok fmt prs.
Notation step := (read_step prs plain sub deep).
Notation rdv := (read_value prs plain sub deep).

Lemma float_text_ok b : float_word b -> text_float prs (float_text fmt b) = Some (canon b) /\
  Forall (fun x => 0 < x < 128) (float_text fmt b).
Proof.
  intros hb. unfold float_text, canon.
  assert (B : forall s, Forall (fun x => 0 < x < 128) (bs s) <-> forallb (fun x => (0 <? x) && (x <? 128)) (bs s) = true).
  { intros s. rewrite forallb_forall, Forall_forall. split; intros h x hx; specialize (h x hx).
    - apply andb_true_iff. rewrite !Z.ltb_lt. lia. - apply andb_true_iff in h. rewrite !Z.ltb_lt in h. lia. }
  destruct (ValueModel.f64_eq_zero b) eqn:E0.
  { pose proof (zero_cases b E0) as Z0. destruct (ValueModel.f64_sign_negative b); subst b; (split; [reflexivity|apply B; reflexivity]). }
  destruct (f_inf b) eqn:E1.
  { pose proof (inf_cases b hb E1) as Z0. destruct (ValueModel.f64_sign_negative b); subst b; (split; [reflexivity|apply B; reflexivity]). }
  destruct (f_nan b) eqn:E2; [split; [reflexivity|apply B; reflexivity]|].
  destruct (TX b hb E0 E1 E2) as (a1 & a2 & a3). split; [|exact a2]. unfold text_float.
  repeat match goal with |- context [bytes_dec ?x ?y] => let e := fresh "e" in destruct (bytes_dec x y) as [e|e]; [exfalso; apply a3; rewrite e; cbn; tauto|] end.
  exact a1.
Qed.
Lemma ascii_text l : Forall (fun x => 0 < x < 128) l -> utf8_ok l = true.
Proof. intros h. apply utf8_ok_ascii. eapply Forall_impl; [|exact h]. cbn. lia. Qed.

Lemma read_float_ok b sy ob H v H' : float_word b -> len (w_float fmt b) < 2 ^ 31 ->
  reads (new_float (canon b)) [] (sy, ob, H) v (sy, ob, H') ->
  forall rd, reads (step rd) (w_float fmt b) (sy, ob, H) v (sy, ob ++ [v], H').
Proof.
  intros hb hl hv rd. destruct (float_text_ok b hb) as [t1 t2]. unfold w_float in *. unfold read_step.
  apply reads_tag. cbn [Z.eqb Pos.eqb]. unfold read_float.
  rewrite !app_length in hl. cbn [length] in hl.
  eapply reads_bindr; [apply reads_blob; lia|]. cbv zeta. rewrite upto_id, ascii_text, t1 by auto.
  eapply reads_bind0; [exact hv|]. eapply reads_bind0; [apply reads_push_obj|]. apply reads_ret.
Qed.

Variable h : heap.
Variable Rf : list val.
Hypothesis TR : tbl h Rf.
Hypothesis OK : Forall (obj_ok plain sub h) h.
Notation dumpv n := (dump_value fmt n h).
Definition f (a : nat) : nat := index a (refs Rf).
Notation F := (vmap f).
Definition img (a : nat) : obj := match nth_error h a with Some o => omap f o | None => OBig 0 end.
Notation news nob := (map img (refs nob)).

(** What a Hash compares its keys by. *)
Inductive kind := KBig (n : Z) | KFlo (b : Z) | KStr (b : list Z) | KObj | KCon.
Definition keyof (o : obj) : kind :=
  match o with
  | OBig n => KBig n | OFlo b => KFlo b | OStr _ b _ _ => KStr b | OObj _ _ => KObj
  | OArr _ _ _ | OHash _ _ _ _ _ | OReg _ _ _ _ => KCon
  end.
Definition Hinv (ob : list val) (H : heap) : Prop := map keyof H = map (fun a => keyof (img a)) (refs ob).
Lemma Hinv_len ob H : Hinv ob H -> length H = length (refs ob).
Proof. intros e. apply (f_equal (@length _)) in e. now rewrite !map_length in e. Qed.
Lemma Hinv_app ob H nob : Hinv ob H -> Hinv (ob ++ nob) (H ++ news nob).
Proof. unfold Hinv. intros e. rewrite refs_app, !map_app, e, map_map. reflexivity. Qed.

(** The tables have room, and the link table is a prefix of the final one. *)
Definition C (sy : list sym) (ob : list val) (out : list Z) (nob : list val) : Prop :=
  len sy + len out < 2 ^ 31 /\ len Rf < 2 ^ 31 /\ exists suf, Rf = ob ++ nob ++ suf.

Lemma split_seq j k w1 w2 sy ob out sy' nob : slack h j w1 -> slack h k w2 -> 0 <= j -> 0 <= k ->
  wseq w1 w2 (sy, ob) = Some (out, (sy', ob ++ nob)) -> C sy ob out nob ->
  exists o1 sy1 n1 o2 n2, out = o1 ++ o2 /\ nob = n1 ++ n2 /\
    w1 (sy, ob) = Some (o1, (sy1, ob ++ n1)) /\ w2 (sy1, ob ++ n1) = Some (o2, (sy', (ob ++ n1) ++ n2)) /\
    C sy ob o1 n1 /\ C sy1 (ob ++ n1) o2 n2.
Proof.
  intros s1 s2 hj hk e (c1 & c2 & suf & c3). winv e. destruct s as [sy1 ob1].
  destruct (s1 _ _ _ _ w) as (a1 & b1 & q & l1 & l2 & _). injection q as -> ->.
  destruct (s2 _ _ _ _ w0) as (a2 & b2 & q & l3 & l4 & _). injection q as -> q.
  rewrite <- app_assoc in q. apply app_inv_head in q. subst nob out.
  rewrite len_app in c1. exists o, (sy ++ a1), b1, o0, b2. repeat split; auto.
  - now rewrite w0, (app_assoc ob).
  - lia.
  - exists (b2 ++ suf). rewrite c3, <- !app_assoc. reflexivity.
  - rewrite len_app. lia.
  - exists suf. rewrite c3, <- !app_assoc. reflexivity.
Qed.
Lemma split_put l w2 k sy ob out sy' nob : slack h k w2 -> 0 <= k ->
  wseq (wput l) w2 (sy, ob) = Some (out, (sy', ob ++ nob)) -> C sy ob out nob ->
  exists o2, out = l ++ o2 /\ w2 (sy, ob) = Some (o2, (sy', ob ++ nob)) /\ C sy ob o2 nob /\ len l < 2 ^ 31.
Proof.
  intros s2 hk e c. destruct c as (c1 & c2 & c3). winv e. injection w as <- <-. subst out.
  exists o0. rewrite len_app in *. repeat split; auto; lia.
Qed.
Lemma C_room sy ob out nob : C sy ob out nob -> len out < 2 ^ 31.
Proof. intros (c & _). lia. Qed.

(** Values without a slot. *)
Lemma imm_sim n v sy ob out sy' ob' : slotless v -> val_ok h v -> dumpv n v (sy, ob) = Some (out, (sy', ob')) ->
  ob' = ob /\ forall N OB H, len sy + len out < 2 ^ 31 -> (length out <= N)%nat ->
  reads (rdv N) out (sy, OB, H) v (sy', OB, H).
Proof.
  intros hs hv e. destruct n as [|n]; [discriminate|]. cbn [dump_value] in e.
  assert (K : forall t x, out = [t] -> sy' = sy -> (forall rd OB H, reads (step rd) [t] (sy, OB, H) x (sy, OB, H)) ->
    forall N OB H, len sy + len out < 2 ^ 31 -> (length out <= N)%nat -> reads (rdv N) out (sy, OB, H) x (sy', OB, H)).
  { intros t x -> -> k N OB H _ hN. destruct N; [cbn in hN; lia|]. apply k. }
  destruct v as [|[]|k|b|s|a]; try (destruct hs; fail); cbn in hv.
  - injection e as <- <- <-. split; [auto|]. eapply K; eauto. intros rd OB H. unfold read_step.
    apply reads_tag. apply reads_ret.
  - injection e as <- <- <-. split; [auto|]. eapply K; eauto. intros rd OB H. unfold read_step.
    apply reads_tag. apply reads_ret.
  - injection e as <- <- <-. split; [auto|]. eapply K; eauto. intros rd OB H. unfold read_step.
    apply reads_tag. apply reads_ret.
  - assert (I : in30 k = true).
    { unfold in30. change (2 ^ 30) with 1073741824 in hv. apply andb_true_iff. split; apply Z.leb_le; lia. }
    rewrite I in e. injection e as <- <- <-. split; [auto|]. intros N OB H _ hN.
    destruct N; [cbn in hN; lia|]. cbn [read_value]. unfold read_step.
    apply reads_tag. cbn [Z.eqb Pos.eqb].
    change (2 ^ 30) with 1073741824 in hv. assert (- 2 ^ 31 <= k < 2 ^ 31) by lia.
    rewrite to_i32_id by lia. eapply reads_bindr; [apply reads_fixnum; lia|]. apply reads_ret.
  - apply w_symbol_form in e as [-> fm]; auto. split; [auto|]. intros N OB H hl hN.
    pose proof (sform'_len _ _ _ _ fm) as [h2 _]. destruct N; [lia|]. now apply read_sym_value.
Qed.
Lemma imm_F v : slotless v -> F v = v. Proof. destruct v; cbn; auto; intros []. Qed.

(** A value that has been entered. *)
Lemma link_sim i v sy ob H N : 0 <= i < len ob -> len ob < 2 ^ 31 -> nth_error ob (Z.to_nat i) = Some v ->
  (1 <= N)%nat -> reads (rdv N) ([64] ++ w_fixnum (to_i32 i)) (sy, map F ob, H) (F v) (sy, map F ob, H).
Proof.
  intros h1 h2 h3 hN. destruct N; [lia|]. cbn [read_value]. unfold read_step.
  apply reads_tag. cbn [Z.eqb Pos.eqb].
  rewrite to_i32_id by lia. eapply reads_bindr; [apply reads_fixnum; lia|]. rewrite usize_id by lia.
  intros p tl _ _. unfold st. cbn [fst snd robjs app length Z.of_nat]. rewrite map_length.
  destruct (Z.ltb_spec i (len ob)); [|lia]. rewrite (map_nth_error F _ _ h3). now rewrite Z.add_0_r.
Qed.

(** The simulation of a value, one level down. *)
Definition vsim (d : val -> W) : Prop := forall v, val_ok h v -> forall N sy ob out sy' nob H,
  d v (sy, ob) = Some (out, (sy', ob ++ nob)) -> C sy ob out nob -> Hinv ob H -> (length out <= N)%nat ->
  reads (rdv N) out (sy, map F ob, H) (F v) (sy', map F (ob ++ nob), H ++ news nob).

Lemma loop_sim {X A} (w : X -> W) (g : A -> R A) (acc : list X -> A) (G : list X -> heap -> heap)
    (J : list X -> list val -> Prop) (N : nat) (l : list X) :
  (forall x, slack h 1 (w x)) ->
  (forall pre T Y, G pre T ++ Y = G pre (T ++ Y)) ->
  (forall pre pre' T, map keyof (G pre T) = map keyof (G pre' T)) ->
  (forall pre x post, l = pre ++ x :: post -> forall sy ob out sy' nob T,
     w x (sy, ob) = Some (out, (sy', ob ++ nob)) -> C sy ob out nob -> Hinv ob (G pre T) -> J pre ob -> (length out <= N)%nat ->
     reads (g (acc pre)) out (sy, map F ob, G pre T) (acc (pre ++ [x])) (sy', map F (ob ++ nob), G (pre ++ [x]) (T ++ news nob))
     /\ J (pre ++ [x]) (ob ++ nob)) ->
  forall post pre, l = pre ++ post -> forall sy ob out sy' nob T,
     w_list w post (sy, ob) = Some (out, (sy', ob ++ nob)) -> C sy ob out nob -> Hinv ob (G pre T) -> J pre ob -> (length out <= N)%nat ->
     loops (len post) (acc pre) g out (sy, map F ob, G pre T) (acc l) (sy', map F (ob ++ nob), G l (T ++ news nob)) /\ J l (ob ++ nob).
Proof.
  intros hw hG hK hb. induction post as [|x post IH]; intros pre e sy ob out sy' nob T hd hc hi hj hN.
  - cbn [w_list] in hd. injection hd as <- <- q. assert (nob = []) as ->.
    { rewrite <- (app_nil_r ob) in q at 1. now apply app_inv_head in q. }
    cbn [refs map]. rewrite !app_nil_r in *. subst. split; [apply loops_nil | exact hj].
  - cbn [w_list] in hd.
    assert (S2 : slack h (1 * len post) (w_list w post)) by (apply slack_list; auto).
    destruct (split_seq 1 (1 * len post) _ _ _ _ _ _ _ (hw x) S2 ltac:(lia) ltac:(lia) hd hc)
      as (o1 & sy1 & n1 & o2 & n2 & -> & -> & e1 & e2 & c1 & c2).
    rewrite app_length in hN.
    destruct (hb pre x post e sy ob o1 sy1 n1 T e1 c1 hi hj ltac:(lia)) as [r1 j1].
    destruct (IH (pre ++ [x]) ltac:(rewrite e, <- app_assoc; reflexivity) sy1 (ob ++ n1) o2 sy' n2 (T ++ news n1) e2 c2) as [r2 j2].
    + unfold Hinv. rewrite (hK _ pre), <- hG. now apply Hinv_app.
    + exact j1. + lia.
    + rewrite refs_app, (map_app img), (app_assoc T), (app_assoc ob). split; [|exact j2].
      cbn [length]. rewrite Nat2Z.inj_succ, <- Z.add_1_r. eapply loops_cons; [lia | exact r1 | exact r2].
Qed.

(** Instance variables. *)
Definition with_iv (o : obj) (iv : list (sym * val)) : obj :=
  match o with
  | OStr c b e _ => OStr c b e iv | OArr c l _ => OArr c l iv | OHash c l d i _ => OHash c l d i iv
  | OObj c _ => OObj c iv | OReg r p e _ => OReg r p e iv | OBig _ | OFlo _ => o
  end.
Definition holder (o : obj) : Prop := match o with OBig _ | OFlo _ => False | _ => True end.
Lemma put_fresh iv s v : ~ In s (map fst iv) -> put_ivar iv s v = iv ++ [(s, v)].
Proof.
  induction iv as [|[s' v'] iv IH]; cbn; intros hn; auto. destruct (sym_dec s' s) as [->|]; [tauto|].
  rewrite IH; tauto.
Qed.
Lemma with_put o iv s v : holder o -> ~ In s (map fst iv) -> obj_ivar s v (with_iv o iv) = with_iv o (iv ++ [(s, v)]).
Proof. intros hh hn. destruct o; cbn in *; try (destruct hh; fail); now rewrite put_fresh. Qed.
Lemma with_with o iv iv' : with_iv (with_iv o iv) iv' = with_iv o iv'. Proof. now destruct o. Qed.
Lemma keyof_with o iv : keyof (with_iv o iv) = keyof o. Proof. now destruct o. Qed.
Lemma ivmap_fst iv : map fst (ivmap f iv) = map fst iv.
Proof. unfold ivmap. rewrite map_map. reflexivity. Qed.
Lemma ivmap_app a b : ivmap f (a ++ b) = ivmap f a ++ ivmap f b. Proof. apply map_app. Qed.
Lemma nodup_mid {A} (l r : list A) x : NoDup (l ++ x :: r) -> ~ In x l.
Proof. intros hn hi. apply NoDup_remove_2 in hn. apply hn, in_or_app. auto. Qed.

Lemma set_ivars_ok sy OB H o T : holder o -> forall iv2 iv1, NoDup (map fst (iv1 ++ iv2)) ->
  reads (set_ivars (VRef (length H)) iv2) [] (sy, OB, H ++ with_iv o iv1 :: T) tt (sy, OB, H ++ with_iv o (iv1 ++ iv2) :: T).
Proof.
  intros hh. induction iv2 as [|[s v] iv2 IH]; intros iv1 hn; cbn [set_ivars].
  - rewrite app_nil_r. apply reads_ret.
  - eapply reads_bind0; [apply reads_update|]. rewrite map_app in hn. cbn [map fst] in hn.
    rewrite with_put; [|exact hh|eapply nodup_mid; exact hn].
    replace (iv1 ++ (s, v) :: iv2) with ((iv1 ++ [(s, v)]) ++ iv2) by now rewrite <- app_assoc.
    apply IH. rewrite <- app_assoc, map_app. exact hn.
Qed.

Lemma w_class_ob c sy ob oc sy1 ob1 : class_ok sub c -> w_class c (sy, ob) = Some (oc, (sy1, ob1)) -> ob1 = ob.
Proof.
  destruct c as [c|]; cbn [w_class]; intros hc e; [|now injection e].
  winv e. injection w as <- <-. apply w_symbol_form in w0 as [-> _]; auto. apply hc.
Qed.
Definition with_class (c : option (list Z)) (o : obj) : obj := match c with None => o | Some n => set_class n o end.

Lemma wrap_class c sy ob oc sy1 ob1 o OB H sy2 OB2 x T N : class_ok sub c ->
  w_class c (sy, ob) = Some (oc, (sy1, ob1)) -> len sy + len oc < 2 ^ 31 ->
  (forall N', (length o <= N')%nat -> reads (rdv N') o (sy1, OB, H) (VRef (length H)) (sy2, OB2, H ++ x :: T)) ->
  (length (oc ++ o) <= N)%nat -> reads (rdv N) (oc ++ o) (sy, OB, H) (VRef (length H)) (sy2, OB2, H ++ with_class c x :: T).
Proof.
  destruct c as [c|]; cbn [w_class with_class]; intros hc e hl hr hN.
  2: { injection e as <- <- _. now apply hr. }
  winv e. injection w as <- <-. apply w_symbol_form in w0 as [_ fm]; [|apply hc].
  subst oc. cbn [app length] in *. destruct N as [|N]; [lia|]. cbn [read_value]. unfold read_step.
  apply reads_tag. cbn [Z.eqb Pos.eqb]. unfold read_user_class.
  rewrite app_length in hN. pose proof (sform'_len _ _ _ _ fm) as [h2 _].
  eapply reads_bind; [apply (read_sym_ok _ _ _ _ _ (SStr c)); [exact (proj1 hc) | exact fm | lia | lia]|].
  eapply reads_bindr; [apply hr; lia|]. cbv zeta. cbn [sym_name].
  destruct hc as (_ & c1 & c2 & c3).
  eapply reads_bind0 with (a := match x with OHash _ _ _ _ _ => true | _ => false end) (s1 := (sy2, OB2, H ++ x :: T)).
  { intros p tl _ _. unfold is_hash, st. cbn [app length Z.of_nat rheap fst snd]. rewrite nth_mid, Z.add_0_r. now destruct x. }
  destruct (bytes_dec c (bs "Hash")) as [q|_]; [contradiction|]. rewrite c2, c1.
  eapply reads_bind0; [apply reads_update|]. apply reads_ret.
Qed.

Lemma hash_ok : sym_ok (SStr (bs "Hash")).
Proof. cbn. apply utf8_ok_iff; [|reflexivity]. repeat constructor; lia. Qed.
Lemma wrap_identity (i : bool) sy ob oc sy1 ob1 o OB H sy2 OB2 c l d iv T N :
  (if i then wseq (wput [67]) (w_symbol (SStr (bs "Hash"))) else wput []) (sy, ob) = Some (oc, (sy1, ob1)) ->
  len sy + len oc < 2 ^ 31 ->
  (forall N', (length o <= N')%nat -> reads (rdv N') o (sy1, OB, H) (VRef (length H)) (sy2, OB2, H ++ OHash c l d false iv :: T)) ->
  (length (oc ++ o) <= N)%nat ->
  ob1 = ob /\ reads (rdv N) (oc ++ o) (sy, OB, H) (VRef (length H)) (sy2, OB2, H ++ OHash c l d i iv :: T).
Proof.
  destruct i; intros e hl hr hN.
  2: { injection e as <- <- <-. split; [reflexivity|]. now apply hr. }
  winv e. injection w as <- <-. apply w_symbol_form in w0 as [-> fm]; [|apply hash_ok]. split; [reflexivity|].
  subst oc. cbn [app length] in *. destruct N as [|N]; [lia|]. cbn [read_value]. unfold read_step.
  apply reads_tag. cbn [Z.eqb Pos.eqb]. unfold read_user_class.
  rewrite app_length in hN. pose proof (sform'_len _ _ _ _ fm) as [h2 _].
  eapply reads_bind; [apply read_sym_ok; [apply hash_ok | exact fm | lia | lia]|].
  eapply reads_bindr; [apply hr; lia|]. cbv zeta. cbn [sym_name].
  eapply reads_bind0 with (a := true) (s1 := (sy2, OB2, H ++ OHash c l d false iv :: T)).
  { intros p tl _ _. unfold is_hash, st. cbn [app length Z.of_nat rheap fst snd]. rewrite nth_mid, Z.add_0_r. reflexivity. }
  destruct (bytes_dec (bs "Hash") (bs "Hash")) as [_|q]; [|now destruct q].
  eapply reads_bind0; [apply reads_update|]. apply reads_ret.
Qed.

(** Ivars after the object they belong to. *)
Lemma any_ivar_sim d N H x iv pre s v post sy ob out sy' nob T : vsim d -> holder x -> ivars_ok h iv ->
  iv = pre ++ (s, v) :: post ->
  slack h 1 (d v) ->
  wseq (w_symbol s) (d v) (sy, ob) = Some (out, (sy', ob ++ nob)) -> C sy ob out nob ->
  Hinv ob (H ++ with_iv x (ivmap f pre) :: T) -> (length out <= N)%nat ->
  reads (any_ivar (rdv N) (VRef (length H)) tt) out (sy, map F ob, H ++ with_iv x (ivmap f pre) :: T) tt
    (sy', map F (ob ++ nob), H ++ with_iv x (ivmap f (pre ++ [(s, v)])) :: T ++ news nob).
Proof.
  intros hd hx [hn hiv] e sd hw hc hi hN.
  destruct (split_seq 1 1 _ _ _ _ _ _ _ (slack_symbol h s) sd ltac:(lia) ltac:(lia) hw hc)
    as (o1 & sy1 & n1 & o2 & n2 & -> & -> & e1 & e2 & c1 & c2).
  rewrite Forall_forall in hiv. destruct (hiv (s, v) ltac:(rewrite e; apply in_or_app; right; now left)) as (a1 & a2 & a3 & a4).
  cbn [fst snd] in *. apply w_symbol_form in e1 as [q fm]; auto.
  assert (n1 = []) as -> by (rewrite <- (app_nil_r ob) in q at 2; now apply app_inv_head in q).
  rewrite app_nil_r in *. cbn [app] in *. rewrite app_length in hN.
  pose proof (sform'_len _ _ _ _ fm) as [l2 _].
  unfold any_ivar. eapply reads_bind.
  { apply read_sym_ok; [exact a1 | exact fm | apply c1 | lia]. }
  eapply reads_bindr; [apply (hd v a4 N sy1 ob o2 sy' n2 _ e2 c2 hi); lia|].
  destruct (bytes_dec (sym_name s) (bs "E")) as [q'|_]; [contradiction|].
  destruct (bytes_dec (sym_name s) (bs "encoding")) as [q'|_]; [contradiction|].
  unfold set_ivar. rewrite <- app_assoc. cbn [app].
  replace (with_iv x (ivmap f (pre ++ [(s, v)]))) with (obj_ivar s (F v) (with_iv x (ivmap f pre))).
  - apply reads_update.
  - rewrite ivmap_app. apply with_put; auto. rewrite ivmap_fst. rewrite e, map_app in hn. eapply nodup_mid. exact hn.
Qed.

Lemma wrap_ivars d iv N sy ob ob1 o0 t o oiv H sy2 sy3 nob n2 x T : vsim d -> (forall v, slack h 1 (d v)) -> holder x -> with_iv x [] = x ->
  ivars_ok h iv -> ~ In t [34; 58; 117] ->
  w_I iv (sy, ob) = Some (o0, (sy, ob)) ->
  w_ivar_block d iv (sy2, ob1) = Some (oiv, (sy3, ob1 ++ n2)) -> C sy2 ob1 oiv n2 ->
  Hinv ob1 (H ++ x :: T) -> ob1 = ob ++ nob ->
  (forall N', (length (t :: o) <= N')%nat -> reads (rdv N') (t :: o) (sy, map F ob, H) (VRef (length H)) (sy2, map F ob1, H ++ x :: T)) ->
  (length (o0 ++ (t :: o) ++ oiv) <= N)%nat ->
  reads (rdv N) (o0 ++ (t :: o) ++ oiv) (sy, map F ob, H) (VRef (length H))
    (sy3, map F (ob1 ++ n2), H ++ with_iv x (ivmap f iv) :: T ++ news n2).
Proof.
  intros hd hg hx hx0 hiv ht w0 w1 hc hi eo hr hN. destruct iv as [|p iv].
  - cbn [w_I w_ivar_block] in *. injection w0 as <-. injection w1 as <- <- q.
    assert (n2 = []) as -> by (rewrite <- (app_nil_r ob1) in q at 1; now apply app_inv_head in q).
    cbn [refs map ivmap]. rewrite !app_nil_r, hx0 in *. cbn [app]. now apply hr.
  - cbn [w_I] in w0. injection w0 as <-. cbn [w_ivar_block] in w1.
    assert (SI : slack h (2 * len (p :: iv)) (w_ivars d (p :: iv))) by (now apply slack_ivars).
    destruct (split_put _ _ _ _ _ _ _ _ SI ltac:(lia) w1 hc) as (o2 & -> & w2 & c2 & _).
    set (IV := p :: iv) in *.
    assert (L : 2 * len IV <= len o2) by (destruct (SI _ _ _ _ w2) as (? & ? & _ & l1 & _); lia).
    assert (B : len IV < 2 ^ 31) by (destruct hc as (b1 & _); rewrite len_app in b1; lia).
    rewrite !app_length in hN. cbn [length app] in hN |- *.
    destruct N as [|N]; [lia|]. cbn [read_value]. unfold read_step. apply reads_tag. cbn [Z.eqb Pos.eqb].
    unfold read_ivar_wrapped. apply reads_peek.
    rewrite (eqb_f t 34), (eqb_f t 58), (eqb_f t 117) by (intros ->; apply ht; cbn; tauto).
    change (t :: o ++ w_fixnum (len_i32 IV) ++ o2) with ((t :: o) ++ (w_fixnum (len_i32 IV) ++ o2)).
    eapply reads_bind; [apply hr; cbn [length]; lia|].
    rewrite len_i32_id by lia. eapply reads_bind; [apply reads_fixnum; lia|]. rewrite usize_id by lia.
    eapply reads_bindr; [|apply reads_ret].
    apply loops_times; [lia|].
    pose proof (loop_sim (fun p => wseq (w_symbol (fst p)) (d (snd p))) (any_ivar (rdv N) (VRef (length H))) (fun _ => tt)
      (fun pre T => H ++ with_iv x (ivmap f pre) :: T) (fun _ _ => True) N IV) as LS.
    edestruct (fun a b c d => LS a b c d IV [] eq_refl sy2 ob1 o2 sy3 n2 T) as [r _]; [| | | | exact w2 | exact c2 | | exact I | | ].
    + intros q. apply (slack_le h 2); [lia|]. apply (slack_seq h 1 1); [apply slack_symbol | apply hg].
    + intros. now rewrite <- app_assoc.
    + intros. rewrite !map_app. cbn [map]. now rewrite !keyof_with.
    + intros pre [s v] post e' sy' ob' out' sy'' nob' T' e1 c1 i1 _ l1. split; [|exact I].
      eapply any_ivar_sim; eauto.
    + cbn [ivmap map app]. rewrite hx0. exact hi.
    + lia.
    + cbn [ivmap map app] in r. rewrite hx0 in r. exact r.
Qed.
(** * Bodies *)
Lemma f_fresh a ob suf H : Rf = ob ++ VRef a :: suf -> Hinv ob H -> f a = length H.
Proof.
  intros e hi. unfold f. rewrite e, refs_app. cbn [refs]. rewrite index_fresh; [now rewrite (Hinv_len _ _ hi)|].
  destruct TR as [tn _]. rewrite e in tn. apply nodup_mid in tn. now rewrite refs_in.
Qed.
Lemma Hinv_new ob H a x : Hinv ob H -> keyof x = keyof (img a) -> Hinv (ob ++ [VRef a]) (H ++ [x]).
Proof. unfold Hinv. intros e k. rewrite refs_app, !map_app, e. cbn. now rewrite k. Qed.
Lemma Hinv_put ob H x y T : Hinv ob (H ++ x :: T) -> keyof x = keyof y -> Hinv ob (H ++ y :: T).
Proof. unfold Hinv. intros e k. rewrite <- e, !map_app. cbn. now rewrite k. Qed.
Lemma f_len a ob nob H suf : Rf = (ob ++ [VRef a]) ++ nob ++ suf -> Hinv ob H -> f a = length H.
Proof. intros e. rewrite <- app_assoc in e. now apply f_fresh with (suf := nob ++ suf). Qed.
Lemma map_new a ob H nob suf : Rf = (ob ++ [VRef a]) ++ nob ++ suf -> Hinv ob H ->
  map F (ob ++ [VRef a]) = map F ob ++ [VRef (length H)].
Proof. intros e hi. rewrite map_app. cbn. now rewrite (f_len _ _ _ _ _ e hi). Qed.

Section Body.
Variable d : val -> W.
Hypothesis hd : vsim d.
Hypothesis hg : forall v, slack h 1 (d v).
Variables (a : nat) (ob : list val) (H : heap).
Hypothesis hi : Hinv ob H.
Notation ob1 := (ob ++ [VRef a]).

Lemma raw_array sy l ol sy' n2 N : keyof (OArr None [] []) = keyof (img a) -> Forall (val_ok h) l ->
  w_list d l (sy, ob1) = Some (ol, (sy', ob1 ++ n2)) -> C sy ob1 ol n2 ->
  (length (([91%Z] ++ w_fixnum (len_i32 l)) ++ ol) <= N)%nat ->
  reads (rdv N) (([91] ++ w_fixnum (len_i32 l)) ++ ol) (sy, map F ob, H) (VRef (length H))
    (sy', map F (ob1 ++ n2), H ++ OArr None (map F l) [] :: news n2).
Proof.
  intros hk hl hw hc hN. rewrite Forall_forall in hl.
  assert (L : len l <= len ol).
  { destruct (slack_list h d 1 l (fun x _ => hg x) _ _ _ _ hw) as (? & ? & _ & l1 & _). lia. }
  assert (B : len l < 2 ^ 31) by (destruct hc as (b1 & _); lia).
  pose proof hc as (_ & _ & suf & e). rewrite <- app_assoc. cbn [app].
  rewrite !app_length in hN. cbn [length] in hN.
  destruct N as [|N]; [lia|]. cbn [read_value]. unfold read_step. apply reads_tag. cbn [Z.eqb Pos.eqb].
  unfold read_array. rewrite len_i32_id by lia. eapply reads_bind; [apply reads_fixnum; lia|]. rewrite usize_id by lia.
  destruct (Z.leb_spec (2 ^ 60) (len l)); [lia|].
  eapply reads_bind0; [apply reads_alloc|]. eapply reads_bind0; [apply reads_push_obj|].
  eapply reads_bindr; [|apply reads_ret]. apply loops_times; [lia|].
  rewrite <- (map_new a ob H n2 suf e hi).
  pose proof (loop_sim d (fun _ : unit => bind (rdv N) (fun v => update (length H) (arr_push v))) (fun _ => tt)
      (fun pre T => H ++ OArr None (map F pre) [] :: T) (fun _ _ => True) N l) as LS.
  edestruct (fun a b c d => LS a b c d l [] eq_refl sy ob1 ol sy' n2 []) as [r _]; [| | | | exact hw | exact hc | | exact I | | exact r].
  - exact hg.
  - intros. now rewrite <- app_assoc.
  - intros. now rewrite !map_app.
  - intros pre v post e' sy1 ob' out' sy2 nob' T e1 c1 i1 _ l1. split; [|exact I].
    eapply reads_bindr; [eapply (hd v); eauto; apply hl; rewrite e'; apply in_or_app; right; now left|].
    rewrite <- app_assoc. cbn [app]. replace (map F (pre ++ [v])) with (map F pre ++ [F v]) by now rewrite map_app.
    apply (reads_update sy2 (map F (ob' ++ nob')) H (OArr None (map F pre) []) (T ++ news nob') (arr_push (F v))).
  - now apply Hinv_new.
  - lia.
Qed.

Lemma raw_string sy b N : len ([34] ++ w_fixnum (len_i32 b) ++ b) < 2 ^ 31 -> f a = length H ->
  (length ([34%Z] ++ w_fixnum (len_i32 b) ++ b) <= N)%nat ->
  reads (rdv N) ([34] ++ w_fixnum (len_i32 b) ++ b) (sy, map F ob, H) (VRef (length H))
    (sy, map F ob1, H ++ [OStr None b Ascii8 []]).
Proof.
  intros hl ha hN. rewrite !app_length in hl. cbn [app length] in *. destruct N as [|N]; [lia|].
  cbn [read_value]. unfold read_step. apply reads_tag. cbn [Z.eqb Pos.eqb]. unfold read_raw_string, new_obj.
  eapply reads_bindr; [apply reads_blob; lia|]. eapply reads_bind0; [apply reads_alloc|].
  eapply reads_bind0; [apply reads_push_obj|]. rewrite map_app. cbn. rewrite ha. apply reads_ret.
Qed.

(** The ivars of a String read before it: nothing in them takes a slot. *)
Lemma str_ivars sn N OB iv : (forall v, d v = dumpv sn v) -> (forall p, In p iv -> sym_ok (fst p) /\ sym_name (fst p) <> bs "E" /\
    sym_name (fst p) <> bs "encoding" /\ val_ok h (snd p) /\ slotless (snd p)) ->
  forall pre e sy obx out sy' obx', w_ivars d iv (sy, obx) = Some (out, (sy', obx')) ->
  len sy + len out < 2 ^ 31 -> (length out <= N)%nat ->
  obx' = obx /\ loops (len iv) (e, pre) (enc_ivar (rdv N)) out (sy, OB, H) (e, pre ++ iv) (sy', OB, H).
Proof.
  intros hdn. induction iv as [|[s v] iv IH]; intros hp pre e sy obx out sy' obx' hw hl hN.
  - cbn [w_ivars w_list] in hw. injection hw as <- <- <-. rewrite app_nil_r. split; [reflexivity|apply loops_nil].
  - cbn [w_ivars w_list] in hw. winv hw. winv w. destruct s0 as [sy2 ob2], s1 as [sy3 ob3]. cbn [fst snd] in *.
    destruct (hp (s, v) ltac:(now left)) as (a1 & a2 & a3 & a4 & a5). cbn [fst snd] in *.
    apply w_symbol_form in w1 as [-> fm]; auto. destruct (hg v _ _ _ _ w2) as (n3 & m3 & q3 & l3 & _ & _).
    injection q3 as -> _. rewrite hdn in w2. apply imm_sim in w2 as [-> rv]; auto.
    pose proof (sform'_len _ _ _ _ fm) as [l2 (ns & -> & l4)].
    subst out. subst o. rewrite !app_length in hl, hN. rewrite !Nat2Z.inj_add in hl.
    destruct (IH (fun p hi => hp p (or_intror hi)) (pre ++ [(s, v)]) e _ _ _ _ _ w0) as [-> rr].
    { rewrite !len_app. lia. } { lia. }
    split; [reflexivity|]. cbn [length]. rewrite Nat2Z.inj_succ, <- Z.add_1_r.
    replace (pre ++ (s, v) :: iv) with ((pre ++ [(s, v)]) ++ iv) by now rewrite <- app_assoc.
    eapply loops_cons; [lia | | exact rr]. unfold enc_ivar.
    eapply reads_bind; [apply read_sym_ok; [exact a1 | exact fm | lia | lia]|].
    destruct (bytes_dec (sym_name s) (bs "E")) as [q'|_]; [contradiction|].
    destruct (bytes_dec (sym_name s) (bs "encoding")) as [q'|_]; [contradiction|].
    eapply reads_bindr; [apply rv; [rewrite len_app; lia | lia]|]. cbn [fst snd]. apply reads_ret.
Qed.

(** A String with its encoding and ivars after it. *)
Lemma i_string sn sy b e iv out sy' n2 N : (forall v, d v = dumpv sn v) -> In e [Ascii8; Utf8; UsAscii] -> ivars_ok h iv ->
  Forall (fun p => slotless (snd p)) iv -> e <> Ascii8 \/ iv <> [] ->
  wseq (wput (w_fixnum (to_i32 ((if match e with Ascii8 => false | _ => true end then 1 else 0) + len iv))))
    (wseq (if match e with Ascii8 => false | _ => true end then w_enc_pair e else wput []) (w_ivars d iv)) (sy, ob1)
    = Some (out, (sy', ob1 ++ n2)) ->
  C sy ob1 ([73] ++ ([34] ++ w_fixnum (len_i32 b) ++ b) ++ out) n2 ->
  (length ([73%Z] ++ ([34%Z] ++ w_fixnum (len_i32 b) ++ b) ++ out) <= N)%nat ->
  n2 = [] /\ reads (rdv N) ([73] ++ ([34] ++ w_fixnum (len_i32 b) ++ b) ++ out) (sy, map F ob, H) (VRef (length H))
    (sy', map F ob1, H ++ [OStr None b e iv]).
Proof.
  intros hdn he hiv hsl hne hw hc hN. set (c := match e with Ascii8 => false | _ => true end) in *.
  destruct hiv as [hn hiv]. rewrite Forall_forall in hiv, hsl.
  assert (hp : forall p, In p iv -> sym_ok (fst p) /\ sym_name (fst p) <> bs "E" /\
    sym_name (fst p) <> bs "encoding" /\ val_ok h (snd p) /\ slotless (snd p)).
  { intros p hp. specialize (hiv p hp). specialize (hsl p hp). tauto. }
  pose proof hc as (b1 & b2 & suf & b3). rewrite !app_length, !Nat2Z.inj_add in b1. cbn [length] in b1.
  rewrite !app_length in hN. cbn [length] in hN.
  apply wseq_inv in hw as (oz & sz & o0 & w & w0 & eo). injection w as <- <-.
  apply wseq_inv in w0 as (o1 & s & o2 & w & w1 & eo0). destruct s as [sy1 obx].
  assert (X : (exists o, o1 = o ++ [enc_byte e] /\ sform (SStr (bs "E")) sy o sy1 /\ c = true /\ e <> Ascii8 \/ (o1 = [] /\ sy1 = sy /\ c = false /\ e = Ascii8)) /\ obx = ob1).
  { clear hc. unfold c in *. destruct he as [<-|[<-|[<-|[]]]].
    - injection w as <- <- <-. split; [exists []; right; auto|auto].
    - apply w_enc_pair_form in w as [-> (o' & -> & fm)]; [|right; now left]. split; [|auto]. exists o'. left. repeat split; auto; discriminate.
    - apply w_enc_pair_form in w as [-> (o' & -> & fm)]; [|right; right; now left]. split; [|auto]. exists o'. left. repeat split; auto; discriminate. }
  destruct X as [[o' X] ->]. clear w.
  assert (S1 : exists ns, sy1 = sy ++ ns /\ len ns <= len o1).
  { destruct X as [(-> & fm & _)|(-> & -> & _)].
    - apply sform_len in fm as [_ (ns & -> & l)]. exists ns. split; auto. rewrite app_length. lia.
    - exists []. rewrite app_nil_r. split; [auto|cbn; lia]. }
  destruct S1 as (ns & -> & l1). subst out. subst o0. rewrite !app_length in b1, hN.
  assert (LI : len iv <= len o2).
  { destruct (slack_ivars h d iv hg _ _ _ _ w1) as (? & ? & _ & l2 & _). lia. }
  assert (n2 = [] /\ forall N' OB pre, (length o2 <= N')%nat -> loops (len iv) (e, pre) (enc_ivar (rdv N')) o2 (sy ++ ns, OB, H) (e, pre ++ iv) (sy', OB, H)) as [-> LP].
  { split.
    - destruct (str_ivars sn (length o2) [] iv hdn hp [] e _ _ _ _ _ w1) as [q _]; [rewrite len_app; lia | lia|].
      rewrite <- (app_nil_r ob1) in q at 2. now apply app_inv_head in q.
    - intros N' OB pre l. eapply (str_ivars sn N' OB iv hdn hp pre e _ _ _ _ _ w1); [rewrite len_app; lia | lia]. }
  split; [reflexivity|]. destruct N as [|N]; [lia|]. cbn [read_value app]. unfold read_step.
  apply reads_tag. cbn [Z.eqb Pos.eqb]. unfold read_ivar_wrapped. apply reads_peek. cbn [Z.eqb Pos.eqb]. apply reads_skip.
  eapply reads_bind; [apply reads_blob; lia|].
  set (cnt := (if c then 1 else 0) + len iv) in *.
  assert (hcnt : 0 <= cnt <= len (o1 ++ o2)).
  { unfold cnt. rewrite len_app. destruct X as [(-> & fm & -> & _)|(-> & _ & -> & _)]; [rewrite len_app; cbn [length]|]; lia. }
  rewrite len_app in hcnt.
  eapply reads_bindr with (a := (e, iv)) (s1 := (sy', map F ob, H)).
  { unfold read_enc_ivars. rewrite to_i32_id by lia. eapply reads_bind; [apply reads_fixnum; lia|]. rewrite usize_id by lia.
    apply loops_times; [rewrite len_app; lia|]. unfold cnt.
    destruct X as [(-> & fm & -> & ne)|(-> & q & -> & ->)].
    - rewrite (Z.add_comm 1). eapply loops_cons; [lia | | apply (LP N (map F ob) []); lia].
      unfold enc_ivar. rewrite app_length in b1. eapply reads_bind.
      { eapply read_symbol_form; [exact fm | left; now apply ascii_plain | lia]. }
      destruct (bytes_dec (sym_name (SStr (bs "E"))) (bs "E")) as [_|n]; [|now destruct n].
      apply reads_peek. destruct he as [<-|[<-|[<-|[]]]]; [congruence | |]; cbn [enc_byte Z.eqb Pos.eqb];
        apply reads_skip, reads_ret.
    - rewrite q in LP. cbn [app]. rewrite Z.add_0_l. apply (LP N (map F ob) []). lia. }
  cbn [fst snd]. unfold new_obj.
  eapply reads_bind0; [eapply reads_bind0; [apply reads_alloc|]; eapply reads_bind0; [apply reads_push_obj|]; apply reads_ret|].
  eapply reads_bind0; [|rewrite (map_new a ob H [] suf b3 hi); apply reads_ret].
  apply (set_ivars_ok sy' _ H (OStr None b e []) [] I iv []). exact hn.
Qed.

(** Keys *)
Lemma keyof_at ob' H' b suf : Hinv ob' H' -> Rf = ob' ++ suf -> In (VRef b) ob' ->
  exists o, nth_error H' (f b) = Some o /\ keyof o = keyof (img b).
Proof.
  intros hi' e hb. apply refs_in in hb.
  assert (E : f b = index b (refs ob')) by (unfold f; rewrite e, refs_app; now apply index_app). rewrite E.
  pose proof (index_in _ _ hb) as q. apply (map_nth_error (fun a => keyof (img a))) in q. rewrite <- hi' in q.
  rewrite nth_error_map in q. destruct (nth_error H' (index b (refs ob'))) as [o|]; [|discriminate]. exists o. cbn [option_map] in q. split; [reflexivity|congruence].
Qed.
Lemma f_inj ob' suf x y : Rf = ob' ++ suf -> In (VRef x) ob' -> In (VRef y) ob' -> f x = f y -> x = y.
Proof.
  intros e hx hy q. apply (index_inj x y (refs Rf)); auto; apply refs_in; rewrite e; apply in_or_app; auto.
Qed.
Lemma canon_nan b : f_nan (canon b) = f_nan b.
Proof. unfold canon. destruct (f_nan b) eqn:E; auto. Qed.
Lemma eql_views ob' H' suf x y : Hinv ob' H' -> Rf = ob' ++ suf ->
  (forall b, x = VRef b -> In (VRef b) ob') -> (forall b, y = VRef b -> In (VRef b) ob') ->
  key_view h x <> None -> key_view h y <> None -> key_view h x <> key_view h y ->
  eql_key deep H' (F x) (F y) = false.
Proof.
  intros hi' e hx hy nx ny ne. unfold eql_key. apply orb_false_iff. split.
  - destruct (same_id (F x) (F y)) eqn:S; auto. apply same_id_iff in S. exfalso. apply ne.
    destruct x, y; cbn in S; try congruence. injection S as S.
    rewrite (f_inj ob' suf a0 a1 e (hx _ eq_refl) (hy _ eq_refl) S). reflexivity.
  - destruct x; cbn [vmap]; auto. destruct y; cbn [vmap]; auto.
    destruct (keyof_at ob' H' a0 suf hi' e (hx _ eq_refl)) as (o1 & q1 & k1).
    destruct (keyof_at ob' H' a1 suf hi' e (hy _ eq_refl)) as (o2 & q2 & k2).
    rewrite q1, q2. unfold img in k1, k2. cbn [key_view] in *.
    destruct (nth_error h a0) as [p1|]; [|now destruct nx]. destruct (nth_error h a1) as [p2|]; [|now destruct ny].
    destruct p1; try (now destruct nx); destruct p2; try (now destruct ny); destruct o1; try discriminate k1; destruct o2; try discriminate k2; auto;
      cbn in k1, k2; injection k1 as ->; injection k2 as ->.
    + destruct (Z.eqb_spec n n0); auto. exfalso. apply ne. congruence.
    + rewrite canon_nan. destruct (f_nan bits) eqn:N1; auto. cbn [negb andb].
      destruct (Z.eqb_spec (canon bits) (canon bits0)) as [q|]; auto. exfalso. apply ne.
      assert (N2 : f_nan bits0 = false) by (rewrite <- canon_nan, <- q, canon_nan; auto).
      unfold canon in q. rewrite N1, N2 in *. congruence.
    + destruct (bytes_dec b b0) as [->|]; auto. now destruct ne.
Qed.
Definition pm (p : val * val) : val * val := (F (fst p), F (snd p)).
Lemma hash_put_new H' l k v : (forall p, In p l -> eql_key deep H' (fst p) k = false) ->
  hash_put deep H' l k v = l ++ [(k, v)].
Proof.
  induction l as [|[k' v'] l IH]; cbn [hash_put app]; intros hp; auto.
  pose proof (hp (k', v') (or_introl eq_refl)) as q. cbn [fst] in q. rewrite q, IH; auto. intros p hq. apply hp. now right.
Qed.

Hypothesis hcl : forall v, clo h (d v) [v].
Lemma raw_hash sy l df ol sy' n2 N : keyof (OHash None [] None false []) = keyof (img a) ->
  Forall (fun p => val_ok h (fst p) /\ val_ok h (snd p)) l -> keys_ok h l ->
  match df with Some x => val_ok h x | None => True end ->
  wseq (w_list (fun p => wseq (d (fst p)) (d (snd p))) l) (match df with Some x => d x | None => wput [] end) (sy, ob1)
    = Some (ol, (sy', ob1 ++ n2)) -> C sy ob1 ol n2 ->
  let t := match df with Some _ => 125 | None => 123 end in
  (length (([t] ++ w_fixnum (len_i32 l)) ++ ol) <= N)%nat ->
  reads (rdv N) (([t] ++ w_fixnum (len_i32 l)) ++ ol) (sy, map F ob, H) (VRef (length H))
    (sy', map F (ob1 ++ n2), H ++ OHash None (map pm l) (option_map F df) false [] :: news n2).
Proof.
  intros hk hl hks hdf hw hc t hN. rewrite Forall_forall in hl. destruct hks as [kn kv]. rewrite Forall_forall in kv.
  assert (S2 : slack h ((1 + 1) * len l) (w_list (fun p => wseq (d (fst p)) (d (snd p))) l)) by now apply slack_pairs.
  assert (S3 : slack h 0 (match df with Some x => d x | None => wput [] end)).
  { destruct df; [eapply slack_le; [|apply hg]; lia | apply slack_put0]. }
  destruct (split_seq _ _ _ _ _ _ _ _ _ S2 S3 ltac:(lia) ltac:(lia) hw hc) as (o1 & sy1 & n1 & o2 & n3 & -> & -> & e1 & e2 & c1 & c2).
  assert (L : 2 * len l <= len o1) by (destruct (S2 _ _ _ _ e1) as (? & ? & _ & l1 & _); lia).
  assert (B : len l < 2 ^ 31) by (destruct c1 as (b1 & _); lia).
  pose proof hc as (_ & _ & suf & e). rewrite <- app_assoc. cbn [app].
  rewrite !app_length in hN. cbn [length] in hN.
  destruct N as [|N]; [lia|]. cbn [read_value]. unfold read_step. apply reads_tag.
  assert (R0 : reads (read_hash deep (rdv N) (match df with Some _ => true | None => false end))
     (w_fixnum (len_i32 l) ++ o1 ++ o2) (sy, map F ob, H) (VRef (length H))
     (sy', map F (ob1 ++ n1 ++ n3), H ++ OHash None (map pm l) (option_map F df) false [] :: news (n1 ++ n3))).
  { unfold read_hash. rewrite len_i32_id by lia. eapply reads_bind; [apply reads_fixnum; lia|]. rewrite usize_id by lia.
    eapply reads_bind0; [apply reads_alloc|]. eapply reads_bind0; [apply reads_push_obj|].
    rewrite <- (map_new a ob H (n1 ++ n3) suf e hi).
    eapply reads_bind.
    { apply loops_times; [lia|].
      pose proof (loop_sim (fun p => wseq (d (fst p)) (d (snd p)))
        (fun _ : unit => bind (rdv N) (fun k => bind (rdv N) (fun v => bind get_heap (fun hh => update (length H) (hash_ins deep k v hh))))) (fun _ => tt)
        (fun pre T => H ++ OHash None (map pm pre) None false [] :: T)
        (fun pre ob' => forall p b, In p pre -> fst p = VRef b -> In (VRef b) ob') N l) as LS.
      edestruct (fun a b c d => LS a b c d l [] eq_refl sy ob1 o1 sy1 n1 []) as [r _]; [| | | | exact e1 | exact c1 | | | | exact r].
      - intros p. apply (slack_le h 2); [lia|]. apply (slack_seq h 1 1); apply hg.
      - intros. now rewrite <- app_assoc.
      - intros. now rewrite !map_app.
      - intros pre [k v] post e' sy2 ob' out' sy3 nob' T w1 c3 i1 j1 l1. cbn [fst snd] in w1.
        destruct (hl (k, v)) as [vk vv]; [rewrite e'; apply in_or_app; right; now left|]. cbn [fst snd] in vk, vv.
        destruct (split_seq 1 1 _ _ _ _ _ _ _ (hg k) (hg v) ltac:(lia) ltac:(lia) w1 c3) as (p1 & sy4 & m1 & p2 & m2 & -> & -> & f1 & f2 & d1 & d2).
        destruct (hcl k _ _ _ _ _ f1) as (g1 & g2 & _). destruct (hcl v _ _ _ _ _ f2) as (g3 & _ & _).
        assert (J2 : forall p b, In p (pre ++ [(k, v)]) -> fst p = VRef b -> In (VRef b) (ob' ++ m1 ++ m2)).
        { intros p b hp hb. rewrite app_assoc. apply in_app_iff in hp as [hp|[<-|[]]].
          - apply g3, g1. eapply j1; eauto.
          - apply g3. cbn in hb. subst k. apply g2; cbn; auto. }
        split; [|exact J2]. rewrite app_length in l1. pose proof d2 as (_ & _ & suf2 & esuf).
        eapply reads_bind; [eapply (hd k); eauto; lia|].
        eapply reads_bindr; [eapply (hd v vv); eauto; [now apply Hinv_app | lia]|].
        set (HH := ((H ++ OHash None (map pm pre) None false [] :: T) ++ news m1) ++ news m2).
        eapply reads_bind0 with (a := HH) (s1 := (sy3, map F ((ob' ++ m1) ++ m2), HH)).
        { intros q tl _ _. unfold get_heap, st. cbn [app length Z.of_nat rheap fst snd]. now rewrite Z.add_0_r. }
        assert (IHH : Hinv ((ob' ++ m1) ++ m2) HH) by (unfold HH; now do 2 apply Hinv_app).
        assert (EQ : hash_ins deep (F k) (F v) HH (OHash None (map pm pre) None false []) =
                     OHash None (map pm (pre ++ [(k, v)])) None false []).
        { cbn [hash_ins]. rewrite hash_put_new; [now rewrite map_app|]. intros q hq. apply in_map_iff in hq as (p & <- & hp).
          cbn [pm fst]. apply (eql_views ((ob' ++ m1) ++ m2) HH suf2); [exact IHH | | | | | |].
          - rewrite esuf. apply app_assoc.
          - intros b hb. rewrite <- app_assoc. apply (J2 p); auto. apply in_or_app; auto.
          - intros b hb. rewrite <- app_assoc. apply (J2 (k, v)); auto. apply in_or_app; right; now left.
          - apply kv. rewrite e'. apply in_or_app; auto.
          - apply (kv (k, v)). rewrite e'. apply in_or_app; right; now left.
          - intros q. rewrite e', map_app in kn. cbn [map fst] in kn. apply nodup_mid in kn. apply kn.
            rewrite <- q. now apply (in_map (fun p => key_view h (fst p))). }
        rewrite <- EQ. rewrite (app_assoc ob'), refs_app, (map_app img), app_assoc.
        unfold HH. rewrite <- !app_assoc. cbn [app].
        eapply reads_update.
      - now apply Hinv_new.
      - intros p b [].
      - lia. }
    assert (HI1 : Hinv (ob1 ++ n1) (H ++ OHash None (map pm l) None false [] :: news n1)).
    { apply (Hinv_put _ H (OHash None [] None false [])); auto.
      replace (H ++ OHash None [] None false [] :: news n1) with ((H ++ [OHash None [] None false []]) ++ news n1) by now rewrite <- app_assoc.
      now apply Hinv_app, Hinv_new. }
    rewrite refs_app, (map_app img), (app_assoc ob1). destruct df as [x|].
    - eapply reads_bindr; [eapply (hd x hdf); eauto; lia|].
      rewrite <- (app_assoc H). cbn [app]. eapply reads_bind0; [apply reads_update|]. apply reads_ret.
    - injection e2 as <- <- q. assert (n3 = []) as -> by (rewrite <- (app_nil_r (ob1 ++ n1)) in q at 1; now apply app_inv_head in q).
      cbn [refs map option_map]. rewrite !app_nil_r. apply reads_ret. }
  unfold t. destruct df; cbn [Z.eqb Pos.eqb]; exact R0.
Qed.

Lemma raw_object sy c iv out sy' n2 N : keyof (OObj c []) = keyof (img a) -> utf8_valid c -> plain c = true -> ivars_ok h iv ->
  w_body fmt d (OObj c iv) (sy, ob1) = Some (out, (sy', ob1 ++ n2)) -> C sy ob1 out n2 -> (length out <= N)%nat ->
  reads (rdv N) out (sy, map F ob, H) (VRef (length H)) (sy', map F (ob1 ++ n2), H ++ OObj c (ivmap f iv) :: news n2).
Proof.
  intros hk hc0 hpl hiv hw hc hN. cbn [w_body] in hw. pose proof hiv as [hn hv]. rewrite Forall_forall in hv.
  assert (SI : slack h (2 * len iv) (w_ivars d iv)) by now apply slack_ivars.
  assert (S1 : slack h (0 + 2 * len iv) (wseq (wput (w_fixnum (len_i32 iv))) (w_ivars d iv))) by (apply slack_seq; [apply slack_put0 | exact SI]).
  assert (S2 := slack_seq h 1 _ _ _ (slack_symbol h (SStr c)) S1).
  destruct (split_put _ _ _ _ _ _ _ _ S2 ltac:(lia) hw hc) as (o2 & -> & w2 & c2 & _).
  destruct (split_seq _ _ _ _ _ _ _ _ _ (slack_symbol h (SStr c)) S1 ltac:(lia) ltac:(lia) w2 c2) as (o3 & sy1 & n1 & o4 & n3 & -> & -> & e1 & e2 & c3 & c4).
  apply w_symbol_form in e1 as [q fm]; [|exact hc0].
  assert (n1 = []) as -> by (rewrite <- (app_nil_r ob1) in q at 2; now apply app_inv_head in q).
  cbn [app] in *. rewrite app_nil_r in *.
  destruct (split_put _ _ _ _ _ _ _ _ SI ltac:(lia) e2 c4) as (o5 & -> & w5 & c5 & _).
  assert (L : 2 * len iv <= len o5) by (destruct (SI _ _ _ _ w5) as (? & ? & _ & l1 & _); lia).
  assert (B : len iv < 2 ^ 31) by (destruct c5 as (b1 & _); lia).
  pose proof hc as (_ & _ & suf & e). pose proof (sform'_len _ _ _ _ fm) as [l2 _].
  cbn [length] in hN. rewrite !app_length in hN. destruct N as [|N]; [lia|].
  cbn [read_value]. unfold read_step. apply reads_tag. cbn [Z.eqb Pos.eqb]. unfold read_user_object.
  eapply reads_bind; [apply (read_sym_ok _ _ _ _ _ (SStr c)); [exact hc0 | exact fm | apply c3 | lia]|].
  rewrite len_i32_id by lia. eapply reads_bind; [apply reads_fixnum; lia|]. rewrite usize_id by lia. cbn [sym_name]. rewrite hpl.
  eapply reads_bind0; [apply reads_alloc|]. eapply reads_bind0; [apply reads_push_obj|].
  rewrite <- (map_new a ob H n3 suf e hi).
  eapply reads_bindr with (a := ivmap f iv) (s1 := (sy', map F (ob1 ++ n3), H ++ OObj c [] :: news n3)).
  { apply loops_times; [lia|].
    pose proof (loop_sim (fun p => wseq (w_symbol (fst p)) (d (snd p)))
      (fun acc => bind (read_symbol (rdv N)) (fun s => bind (rdv N) (fun v => ret (acc ++ [(s, v)])))) (fun pre => ivmap f pre)
      (fun _ T => H ++ OObj c [] :: T) (fun _ _ => True) N iv) as LS.
    edestruct (fun a b c d => LS a b c d iv [] eq_refl sy1 ob1 o5 sy' n3 []) as [r _]; [| | | | exact w5 | exact c5 | | exact I | | exact r].
    - intros p. apply (slack_le h 2); [lia|]. apply (slack_seq h 1 1); [apply slack_symbol | apply hg].
    - intros. now rewrite <- app_assoc.
    - reflexivity.
    - intros pre [s v] post e' sy2 ob' out' sy3 nob' T w1 c1 i1 _ l1. cbn [fst snd] in w1. split; [|exact I].
      destruct (split_seq 1 1 _ _ _ _ _ _ _ (slack_symbol h s) (hg v) ltac:(lia) ltac:(lia) w1 c1) as (p1 & sy4 & m1 & p2 & m2 & -> & -> & f1 & f2 & d1 & d2).
      destruct (hv (s, v) ltac:(rewrite e'; apply in_or_app; right; now left)) as (a1 & a2 & a3 & a4). cbn [fst snd] in *.
      apply w_symbol_form in f1 as [q' fm']; auto.
      assert (m1 = []) as -> by (rewrite <- (app_nil_r ob') in q' at 2; now apply app_inv_head in q').
      rewrite app_nil_r in *. cbn [app] in *. rewrite app_length in l1. pose proof (sform'_len _ _ _ _ fm') as [l3 _].
      eapply reads_bind; [apply read_sym_ok; [exact a1 | exact fm' | apply d1 | lia]|].
      eapply reads_bindr; [eapply (hd v a4); eauto; lia|].
      rewrite ivmap_app, <- app_assoc. cbn [app]. apply reads_ret.
    - now apply Hinv_new.
    - lia. }
  eapply reads_bind0; [|apply reads_ret].
  apply (set_ivars_ok sy' _ H (OObj c []) (news n3) I (ivmap f iv) []). cbn [app]. now rewrite ivmap_fst.
Qed.

Definition tagged (o : list Z) : Prop := exists t o', o = t :: o' /\ ~ In t [34; 58; 117].
Lemma tagged_class c st0 oc st1 o : w_class c st0 = Some (oc, st1) -> tagged o \/ c <> None -> tagged (oc ++ o).
Proof.
  destruct c as [c|]; cbn [w_class]; intros e ho.
  - winv e. injection w as <- <-. subst. exists 67. eexists. split; [reflexivity|]. cbn. lia.
  - injection e as <- <-. destruct ho as [ho|ho]; [exact ho | congruence].
Qed.
Lemma tagged_identity (i : bool) st0 oc st1 o :
  (if i then wseq (wput [67]) (w_symbol (SStr (bs "Hash"))) else wput []) st0 = Some (oc, st1) -> tagged o -> tagged (oc ++ o).
Proof.
  destruct i; intros e ho.
  - winv e. injection w as <- <-. subst. exists 67. eexists. split; [reflexivity|]. cbn. lia.
  - injection e as <- <-. exact ho.
Qed.
Lemma w_I_st iv : exists o0, forall s : wst, w_I iv s = Some (o0, s).
Proof. destruct iv; eexists; intros; reflexivity. Qed.
Lemma same_ob {x y : list val} : x ++ y = x -> y = [].
Proof. intros e. rewrite <- (app_nil_r x) in e at 2. now apply app_inv_head in e. Qed.

(** The body of [a] between its ivar marker and its ivars. *)
Lemma framed iv sy out sy' n2 N (core : W) x : holder x -> with_iv x [] = x -> keyof x = keyof (img a) -> ivars_ok h iv ->
  slack h 0 core ->
  wseq (w_I iv) (wseq core (w_ivar_block d iv)) (sy, ob1) = Some (out, (sy', ob1 ++ n2)) -> C sy ob1 out n2 ->
  (length out <= N)%nat ->
  (forall sy oo sy2 m N', core (sy, ob1) = Some (oo, (sy2, ob1 ++ m)) -> C sy ob1 oo m -> (length oo <= N')%nat ->
     tagged oo /\ reads (rdv N') oo (sy, map F ob, H) (VRef (length H)) (sy2, map F (ob1 ++ m), H ++ x :: news m)) ->
  reads (rdv N) out (sy, map F ob, H) (VRef (length H)) (sy', map F (ob1 ++ n2), H ++ with_iv x (ivmap f iv) :: news n2).
Proof.
  intros hx hx0 hk hiv hs hw hc hN hr.
  assert (SB : slack h 0 (w_ivar_block d iv)) by now apply slack_ivar_block.
  destruct (split_seq 0 (0 + 0) _ _ _ _ _ _ _ (slack_I h iv) (slack_seq h 0 0 _ _ hs SB) ltac:(lia) ltac:(lia) hw hc)
    as (o0 & sy1 & n1 & o1 & n3 & -> & -> & e0 & e1 & c0 & c1).
  destruct (w_I_st iv) as (oI & eI). rewrite eI in e0. injection e0 as -> <- q. symmetry in q. apply same_ob in q as ->.
  cbn [app] in *. rewrite app_nil_r in *.
  destruct (split_seq 0 0 _ _ _ _ _ _ _ hs SB ltac:(lia) ltac:(lia) e1 c1) as (oo & sy2 & m & oiv & n4 & -> & -> & e2 & e3 & c2 & c3).
  destruct (hr _ _ _ _ (length oo) e2 c2 ltac:(lia)) as [(t & o' & -> & ht) _].
  rewrite refs_app, (map_app img), (app_assoc ob1).
  eapply (wrap_ivars d iv N sy ob (ob1 ++ m) o0 t o' oiv H sy2 sy' ([VRef a] ++ m) n4 x (news m)); auto.
  - replace (H ++ x :: news m) with ((H ++ [x]) ++ news m) by now rewrite <- app_assoc.
    now apply Hinv_app, Hinv_new.
  - now rewrite <- app_assoc.
  - intros N' l. eapply (hr _ _ _ _ N' e2 c2 l).
Qed.
Lemma w_assoc (x y z : W) s : wseq x (wseq y z) s = wseq (wseq x y) z s.
Proof.
  unfold wseq. destruct (x s) as [[o1 s1]|]; auto. destruct (y s1) as [[o2 s2]|]; auto.
  destruct (z s2) as [[o3 s3]|]; auto. now rewrite app_assoc.
Qed.
Lemma w_ext (x y z : W) s : (forall s, y s = z s) -> wseq x y s = wseq x z s.
Proof. intros e. unfold wseq. destruct (x s) as [[o1 s1]|]; auto. now rewrite e. Qed.

Lemma body_sim sn o sy out sy' n2 N : (forall v, d v = dumpv sn v) -> nth_error h a = Some o ->
  w_body fmt d o (sy, ob1) = Some (out, (sy', ob1 ++ n2)) -> C sy ob1 out n2 -> (length out <= N)%nat ->
  reads (rdv N) out (sy, map F ob, H) (VRef (length H)) (sy', map F (ob1 ++ n2), H ++ img a :: news n2).
Proof.
  intros hdn hn hw hc hN. assert (ok : obj_ok plain sub h o).
  { rewrite Forall_forall in OK. apply OK. eapply nth_error_In; eauto. }
  assert (hI : img a = omap f o) by (unfold img; now rewrite hn).
  pose proof hc as (b1 & b2 & suf & e).
  assert (hl : forall l, slack h 0 (w_list d l)) by (intros l; eapply slack_le; [|apply (slack_list h d 1); intros; apply hg]; lia).
  destruct o as [n|b|c b en iv|c l iv|c l df i iv|c iv|]; cbn [obj_ok] in ok; [| | | | | |contradiction].
  - cbn [w_body] in hw. injection hw as <- <- q. symmetry in q. apply same_ob in q as ->. rewrite app_nil_r in *.
    assert (w_bignum n = 108 :: tl (w_bignum n)) as W by reflexivity.
    destruct N as [|N]; [rewrite W in hN; cbn in hN; lia|]. cbn [read_value refs map].
    rewrite W. unfold read_step. apply reads_tag. cbn [Z.eqb Pos.eqb].
    rewrite (map_new a ob H [] suf e hi), hI. cbn [omap].
    eapply read_bignum_ok; [reflexivity | apply bignum_room; lia | now apply new_int_big].
  - cbn [w_body] in hw. injection hw as <- <- q. symmetry in q. apply same_ob in q as ->. rewrite app_nil_r in *.
    destruct N as [|N]; [unfold w_float in hN; cbn in hN; lia|]. cbn [read_value refs map].
    rewrite (map_new a ob H [] suf e hi), hI. cbn [omap]. destruct ok as [o1 o2].
    eapply read_float_ok; [exact o1 | lia|]. unfold new_float.
    replace (ValueModel.enc_flonum (canon b)) with (@None Z).
    + eapply reads_bind0; [apply reads_alloc | apply reads_ret].
    + unfold canon. destruct (f_nan b); [reflexivity | now rewrite o2].
  - cbn [w_body] in hw. destruct c as [c|].
    + destruct ok as (o1 & -> & o2). rewrite hI. cbn [omap].
      change (OStr (Some c) b Ascii8 (ivmap f iv)) with (with_iv (OStr (Some c) b Ascii8 []) (ivmap f iv)).
      eapply (framed iv sy out sy' n2 N (wseq (w_class (Some c)) (wput ([34] ++ w_fixnum (len_i32 b) ++ b)))); auto; try exact I.
      * now rewrite hI.
      * eapply slack_le; [|apply slack_seq; [apply slack_class | apply slack_put0]]; lia.
      * rewrite <- hw. clear. cbv zeta. cbn [w_ivar_block].
        transitivity (wseq (w_I iv) (wseq (w_class (Some c)) (wseq (wput ([34] ++ w_fixnum (len_i32 b) ++ b)) (w_ivar_block d iv))) (sy, ob1)).
        { apply w_ext. intros. symmetry. apply w_assoc. }
        destruct iv as [|p iv]; [reflexivity|]. cbn [w_I w_ivar_block].
        replace (0 <? 0 + len (p :: iv)) with true by (symmetry; apply Z.ltb_lt; cbn [length]; lia).
        apply w_ext; intros. apply w_ext; intros. apply w_ext; intros. unfold wseq, wput, len_i32. cbn [app]. rewrite Z.add_0_l.
        match goal with |- context [w_ivars d ?x ?s] => destruct (w_ivars d x s) as [[]|]; reflexivity end.
      * intros sy0 oo sy2 m N' w0 c0 l0.
        destruct (split_seq 0 2 _ _ _ _ _ _ _ (slack_class h (Some c)) (slack_blob h _ _ _) ltac:(lia) ltac:(lia) w0 c0)
          as (oc & sy1 & m1 & ob0 & m2 & -> & -> & f1 & f2 & d1 & d2).
        pose proof (w_class_ob _ _ _ _ _ _ o1 f1) as q. apply same_ob in q as ->.
        injection f2 as <- <- q. symmetry in q. apply same_ob in q as ->. cbn [app refs map] in *. rewrite !app_nil_r in *.
        split; [eapply tagged_class; [exact f1 | right; discriminate]|].
        destruct d1 as (d11 & _). pose proof (C_room _ _ _ _ d2).
        eapply (wrap_class (Some c) _ _ _ _ _ _ _ _ _ _ (OStr None b Ascii8 [])); eauto.
        intros N2 l2. apply raw_string; auto. eapply f_len; eauto.
    + destruct ok as (o1 & o2 & o3). rewrite hI. cbn [omap].
      assert (IVE : ivmap f iv = iv).
      { rewrite Forall_forall in o3. unfold ivmap. rewrite <- (map_id iv) at 2. apply map_ext_in. intros [s v] hin.
        cbn [fst snd]. f_equal. apply imm_F. exact (o3 (s, v) hin). }
      rewrite IVE. cbv zeta in hw.
      assert (ALT : (en <> Ascii8 \/ iv <> []) \/ (en = Ascii8 /\ iv = [])).
      { destruct iv; [|left; right; discriminate]. destruct (enc_dec en Ascii8); [right; auto | left; auto]. }
      destruct ALT as [ne|[-> ->]].
      * replace (0 <? (if match en with Ascii8 => false | _ => true end then 1 else 0) + len iv) with true in hw.
        2: { symmetry. apply Z.ltb_lt. destruct ne as [ne|ne]; [destruct en; try congruence; lia|]. destruct iv; [congruence|].
             cbn [length]. destruct (match en with Ascii8 => false | _ => true end); lia. }
        winv hw. injection w as <- <-. winv w0. injection w as <- <-. winv w1. injection w as <- <-. subst.
        cbn [app] in *. destruct (i_string sn sy b en iv _ sy' n2 N hdn o1 o2 o3 ne w0 hc hN) as [-> r].
        rewrite app_nil_r. cbn [refs map]. exact r.
      * cbn in hw. unfold wseq, wput in hw. injection hw as <- <- q. symmetry in q. apply same_ob in q as ->.
        rewrite !app_nil_r in *. apply raw_string; auto; [cbn [app]; lia|]. eapply f_len with (nob := []); eauto.
  - destruct ok as (o1 & o2 & o3). rewrite hI. cbn [omap].
    change (OArr c (map F l) (ivmap f iv)) with (with_iv (OArr c (map F l) []) (ivmap f iv)).
    eapply (framed iv sy out sy' n2 N (wseq (w_class c) (wseq (wput ([91] ++ w_fixnum (len_i32 l))) (w_list d l)))); auto; try exact I.
    + now rewrite hI.
    + apply (slack_seq h 0 0); [apply slack_class|]. apply (slack_seq h 0 0); [apply slack_put0 | auto].
    + rewrite <- hw. cbn [w_body]. apply w_ext. intros. rewrite <- w_assoc. apply w_ext. intros. now rewrite <- w_assoc.
    + intros sy0 oo sy2 m N' w0 c0 l0.
      destruct (split_seq 0 (0 + 0) _ _ _ _ _ _ _ (slack_class h c) (slack_seq h 0 0 _ _ (slack_put0 h _) (hl l)) ltac:(lia) ltac:(lia) w0 c0)
        as (oc & sy1 & m1 & ob0 & m2 & -> & -> & f1 & f2 & d1 & d2).
      pose proof (w_class_ob _ _ _ _ _ _ o1 f1) as q. apply same_ob in q as ->. cbn [app] in *. rewrite !app_nil_r in *.
      destruct (split_put _ _ _ _ _ _ _ _ (hl l) ltac:(lia) f2 d2) as (ol & -> & f3 & d3 & _).
      split; [eapply tagged_class; [exact f1|]; left; exists 91; eexists; split; [reflexivity | cbn; lia]|].
      replace (OArr c (map F l) []) with (with_class c (OArr None (map F l) [])) by now destruct c.
      eapply wrap_class; eauto; [apply d1|]. intros N2 l2. apply raw_array; auto. now rewrite hI.
  - destruct ok as (o1 & o2 & o3 & o4 & o5). rewrite hI. cbn [omap].
    change (OHash c (map (fun p => (F (fst p), F (snd p))) l) (option_map F df) i (ivmap f iv))
      with (with_iv (OHash c (map pm l) (option_map F df) i []) (ivmap f iv)).
    assert (hq : slack h 0 (w_list (fun p => wseq (d (fst p)) (d (snd p))) l)).
    { eapply slack_le; [|apply (slack_pairs h d l); exact hg]. lia. }
    assert (hdf : slack h 0 (match df with Some x => d x | None => wput [] end)).
    { destruct df; [|apply slack_put0]. eapply slack_le; [|apply hg]; lia. }
    assert (hid : slack h 0 (if i then wseq (wput [67]) (w_symbol (SStr (bs "Hash"))) else wput [])).
    { apply slack_if; [|apply slack_put0]. eapply slack_le; [|apply slack_seq; [apply slack_put0 | apply slack_symbol]]. lia. }
    set (t := match df with Some _ => 125 | None => 123 end) in *.
    eapply (framed iv sy out sy' n2 N (wseq (w_class c) (wseq (if i then wseq (wput [67]) (w_symbol (SStr (bs "Hash"))) else wput [])
        (wseq (wput ([t] ++ w_fixnum (len_i32 l))) (wseq (w_list (fun p => wseq (d (fst p)) (d (snd p))) l)
           (match df with Some x => d x | None => wput [] end)))))); auto; try exact I.
    + now rewrite hI.
    + apply (slack_seq h 0 0); [apply slack_class|]. apply (slack_seq h 0 0); [auto|]. apply (slack_seq h 0 0); [apply slack_put0|].
      apply (slack_seq h 0 0); auto.
    + rewrite <- hw. cbn [w_body]. apply w_ext. intros. rewrite <- w_assoc. apply w_ext. intros. rewrite <- w_assoc. apply w_ext. intros.
      rewrite <- w_assoc. apply w_ext. intros. now rewrite <- w_assoc.
    + intros sy0 oo sy2 m N' w0 c0 l0.
      assert (s4 := slack_seq h 0 0 _ _ hq hdf).
      assert (s3 := slack_seq h 0 _ _ _ (slack_put0 h ([t] ++ w_fixnum (len_i32 l))) s4).
      assert (s2 := slack_seq h 0 _ _ _ hid s3).
      destruct (split_seq 0 _ _ _ _ _ _ _ _ (slack_class h c) s2 ltac:(lia) ltac:(lia) w0 c0)
        as (oc & sy1 & m1 & ob0 & m2 & -> & -> & f1 & f2 & d1 & d2).
      pose proof (w_class_ob _ _ _ _ _ _ o1 f1) as q. apply same_ob in q as ->. cbn [app] in *. rewrite !app_nil_r in *.
      destruct (split_seq 0 _ _ _ _ _ _ _ _ hid s3 ltac:(lia) ltac:(lia) f2 d2)
        as (oi & sy3 & m1 & ob2 & m3 & -> & -> & f3 & f4 & d3 & d4).
      assert (m1 = []) as ->.
      { destruct i; [|injection f3 as _ _ q; symmetry in q; now apply same_ob in q]. clear w0 c0.
        apply wseq_inv in f3 as (p1 & q1 & p2 & g1 & g2 & _). injection g1 as <- <-.
        apply w_symbol_form in g2 as [q _]; [now apply same_ob in q | apply hash_ok]. }
      cbn [app] in *. rewrite !app_nil_r in *.
      destruct (split_put _ _ _ _ _ _ _ _ s4 ltac:(lia) f4 d4) as (ol & -> & f5 & d5 & _).
      assert (tg : tagged (oi ++ ([t] ++ w_fixnum (len_i32 l)) ++ ol)).
      { eapply tagged_identity; [exact f3|]. exists t. eexists. split; [reflexivity|]. unfold t. destruct df; cbn; lia. }
      split; [eapply tagged_class; [exact f1 | now left]|].
      replace (OHash c (map pm l) (option_map F df) i []) with (with_class c (OHash None (map pm l) (option_map F df) i [])) by now destruct c.
      eapply wrap_class; eauto; [apply d1|]. intros N2 l2.
      eapply (wrap_identity i); eauto; [apply d3|]. intros N3 l3. apply raw_hash; auto. now rewrite hI.
  - destruct ok as (o1 & o2 & o3). rewrite hI. cbn [omap]. eapply raw_object; eauto. now rewrite hI.
Qed.
End Body.

Lemma ok_bigs : bigs h.
Proof.
  intros a n e. rewrite Forall_forall in OK. pose proof (OK _ (nth_error_In _ _ e)) as q. cbn in q. unfold small in q.
  unfold in30. destruct (Z.leb_spec (-0x40000000) n), (Z.leb_spec n 0x3fffffff); cbn; auto. exfalso. apply q.
  change (2 ^ 62) with 4611686018427387904. lia.
Qed.
Lemma linked_sim v body N sy ob out sy' nob H : w_linked v body (sy, ob) = Some (out, (sy', ob ++ nob)) ->
  C sy ob out nob -> (length out <= N)%nat ->
  (forall n2, ~ In v ob -> nob = v :: n2 -> body (sy, ob ++ [v]) = Some (out, (sy', (ob ++ [v]) ++ n2)) ->
     reads (rdv N) out (sy, map F ob, H) (F v) (sy', map F ((ob ++ [v]) ++ n2), H ++ news (v :: n2))) ->
  slack h 2 body ->
  reads (rdv N) out (sy, map F ob, H) (F v) (sy', map F (ob ++ nob), H ++ news nob).
Proof.
  intros e (c1 & c2 & c3) hN hb hs. unfold w_linked in e. cbn [fst snd] in e.
  pose proof (position_id v ob) as P. destruct (position _ ob 0) as [i|].
  - destruct P as [P1 P2]. injection e as <- <- q. symmetry in q. apply same_ob in q as ->. cbn [refs map]. rewrite !app_nil_r.
    destruct c3 as [suf q]. rewrite q, !app_length in c2. apply link_sim; auto; [lia|]. cbn in hN. lia.
  - destruct (hs _ _ _ _ e) as (nsy & n2 & q & _). injection q as -> q. rewrite <- app_assoc in q. apply app_inv_head in q as ->.
    cbn [app] in *. change (v :: n2) with ([v] ++ n2). rewrite (app_assoc ob [v] n2). apply hb; auto.
    rewrite e, <- app_assoc. reflexivity.
Qed.
Theorem dump_sim n : vsim (dumpv n).
Proof.
  induction n as [|n IH]; intros v hv N sy ob out sy' nob H e hc hi hN; [discriminate|].
  destruct v as [|x|k|b|s|a].
  1, 2, 3, 5: (apply imm_sim in e as [q r]; [|exact I | exact hv]; apply same_ob in q as ->; rewrite app_nil_r; cbn [refs map];
    rewrite app_nil_r; apply r; auto; now destruct hc).
  - cbn [dump_value] in e. eapply linked_sim; eauto; [|unfold w_float; apply slack_blob].
    intros n2 hn -> w. injection w as <- <- q. symmetry in q. apply same_ob in q as ->. rewrite app_nil_r. cbn [refs map app].
    rewrite app_nil_r. destruct N as [|N]; [unfold w_float in hN; cbn in hN; lia|]. cbn [read_value].
    rewrite map_app. cbn [map vmap]. destruct hv as [v1 v2]. destruct hc as (c1 & _).
    apply read_float_ok; auto; [lia|]. unfold new_float, canon. destruct (f_nan b) eqn:nb; [now rewrite nan_boxed in v2|].
    destruct (ValueModel.enc_flonum b) eqn:eb; [|congruence]. apply reads_ret.
  - cbn [dump_value] in e. destruct (nth_error h a) as [o|] eqn:ha; [|discriminate].
    assert (e' : w_linked (VRef a) (w_body fmt (dumpv n) o) (sy, ob) = Some (out, (sy', ob ++ nob))).
    { destruct o; auto. rewrite (ok_bigs a n0 ha) in e. exact e. }
    eapply linked_sim; eauto; [|apply slack_body, dump_slack].
    intros n2 hn -> w. cbn [vmap refs map]. destruct hc as (c1 & c2 & suf & q).
    rewrite (f_fresh a ob (n2 ++ suf) H); auto.
    assert (HC : C sy (ob ++ [VRef a]) out n2).
    { split; [exact c1|]. split; [exact c2|]. exists suf; now rewrite <- app_assoc. }
    eapply (body_sim (dumpv n) IH (dump_slack h fmt n) a ob H hi (dump_clo h fmt ok_bigs n)); eauto.
Qed.
End Sim.

(** * The whole graph *)
Section Main.
Variables (fmt : Z -> list Z) (prs : list Z -> option Z) (plain sub : list Z -> bool) (deep : heap -> nat -> nat -> bool).

Lemma ok_slots h o v : obj_ok plain sub h o -> In v (slots o) -> val_ok h v.
Proof.
  assert (IV : forall iv, ivars_ok h iv -> In v (map snd iv) -> val_ok h v).
  { intros iv [_ k] hi. rewrite Forall_forall in k. apply in_map_iff in hi as (p & <- & hp). apply k in hp. tauto. }
  destruct o as [n|b|[c|] b e iv|c l iv|c l d i iv|c iv|]; cbn [obj_ok slots]; intros ok hi; try contradiction.
  - destruct ok as (_ & _ & ok). eauto.
  - destruct ok as (_ & ok & _). eauto.
  - destruct ok as (_ & k & ok). apply in_app_or in hi as [hi|hi]; eauto. rewrite Forall_forall in k. auto.
  - destruct ok as (_ & k & _ & kd & ok). rewrite Forall_forall in k. apply in_app_or in hi as [hi|hi].
    + apply in_flat_map in hi as (p & hp & hi). apply k in hp as [k1 k2]. destruct hi as [<-|[<-|[]]]; auto.
    + apply in_app_or in hi as [hi|hi]; eauto. destruct d; [|destruct hi]. destruct hi as [<-|[]]. auto.
  - destruct ok as (_ & _ & ok). eauto.
Qed.

Theorem dump_succeeds h v : graph_ok plain sub h v -> exists out, dump fmt (S (length h)) h v = Some out.
Proof.
  intros [ok hv].
  assert (ins : forall w, val_ok h w -> inside h w) by (intros []; cbn; auto).
  assert (cl : closed h).
  { intros a w hw. unfold kids in hw. destruct (nth_error h a) as [o|] eqn:e; [|destruct hw].
    apply ins. eapply ok_slots; eauto. rewrite Forall_forall in ok. apply ok. eapply nth_error_In; eauto. }
  destruct (dump_total h fmt (S (length h)) 0 v cl (ins _ hv) ltac:(lia) [] [] ltac:(split; constructor) ltac:(cbn; lia))
    as (out & sy & ob & e).
  exists ([4; 8] ++ out). unfold dump. now rewrite e.
Qed.

Theorem load_dump h v fuel out : text_ok fmt prs -> graph_ok plain sub h v ->
  dump fmt fuel h v = Some out -> len out < 2 ^ 31 ->
  exists v' h', load prs plain sub deep out = Ok (v', h') /\ isomorphic h v h' v'.
Proof.
  intros TX [ok hv] e hl. unfold dump in e. destruct (dump_value fmt fuel h v ([], [])) as [[o [sy Rf]]|] eqn:ed; [|discriminate].
  injection e as <-. cbn [fst app length] in *.
  destruct (dump_slack h fmt fuel v _ _ _ _ ed) as (nsy & nob & q & l1 & l2 & TR). injection q as -> ->. cbn [app] in *.
  specialize (TR ltac:(split; constructor)).
  set (f := fun a => index a (refs nob)).
  pose proof (dump_sim fmt prs plain sub deep TX h nob TR ok fuel v hv (S (length o)) [] [] o nsy nob [] ed) as S.
  specialize (S ltac:(split; [cbn [length]; lia|split; [lia|exists []; now rewrite app_nil_r]]) ltac:(reflexivity) ltac:(lia)).
  specialize (S 0 [] ltac:(lia) ltac:(cbn [length]; change (2 ^ 63) with 9223372036854775808; change (2 ^ 31) with 2147483648 in hl; lia)).
  rewrite app_nil_r in S. unfold st in S. cbn [fst snd map app] in S.
  exists (vmap f v), (map (img h nob) (refs nob)). split.
  { unfold load. cbn [Z.eqb Pos.eqb andb]. rewrite S. reflexivity. }
  assert (B : bigs h). { eapply ok_bigs; eauto. }
  destruct (dump_clo h fmt B fuel v _ _ _ _ _ ed) as (_ & K1 & K2).
  assert (RE : forall a, reach h v a -> In (VRef a) nob).
  { induction 1 as [a ->|a x b hr IH hx hb]; [apply K1; [now left | exact I]|].
    destruct (K2 a IH) as [[]|k]. apply k; [|exact I]. unfold kids. now rewrite hx. }
  exists f. split; [reflexivity|]. split.
  - intros a b ha hb. apply index_inj; apply refs_in; auto.
  - intros a ha. apply RE, refs_in in ha. pose proof (proj2 (tbl_refs _ _ TR) a ha) as la.
    destruct (nth_error h a) as [x|] eqn:ex; [|apply nth_error_None in ex; lia]. exists x. split; [reflexivity|].
    rewrite (map_nth_error _ _ _ (index_in _ _ ha)). unfold img. now rewrite ex.
Qed.
End Main.
