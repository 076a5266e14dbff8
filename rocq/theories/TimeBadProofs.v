From Coq Require Import List Bool ZArith Lia.
From Verif Require Import TimeModel TimeSpec TimeCalProofs TimeProofs TimeMarshalProofs TimeTextProofs TimeScanProofs.
Import ListNotations.
Open Scope Z_scope.

Lemma local_ok z cands w n t : time_local z cands (Ok (w, n)) = Ok t -> utc t = false /\ ts t + off t = w /\ off t = z (ts t) /\ ns t = n.
Proof.
  unfold time_local, from_local. cbn [bind fst snd]. destruct (filter _ _) as [|o [|o2 l]] eqn:E; try discriminate. intros [= <-]. cbn [utc ts off ns].
  assert (In o (filter (fun o => z (w - o) =? o) cands)) as I by (rewrite E; left; reflexivity). apply filter_In in I. destruct I as [_ I].
  apply Z.eqb_eq in I. repeat split; lia.
Qed.
Lemma local_total z cands w n : (forall s, In (z s) cands) -> NoDup cands -> (exists s, s + z s = w /\ forall s', s' + z s' = w -> s' = s) ->
  exists t, time_local z cands (Ok (w, n)) = Ok t.
Proof.
  intros Hc Hd (s & Hs & Hu). unfold time_local, from_local. cbn [bind fst snd].
  assert (I : In (z s) (filter (fun o => z (w - o) =? o) cands)).
  { apply filter_In. split; [apply Hc|]. apply Z.eqb_eq. f_equal. lia. }
  assert (O : forall o, In o (filter (fun o => z (w - o) =? o) cands) -> o = z s).
  { intros o H. apply filter_In in H. destruct H as [_ H]. apply Z.eqb_eq in H. pose proof (Hu (w - o) ltac:(lia)). lia. }
  assert (D : NoDup (filter (fun o => z (w - o) =? o) cands)) by (apply NoDup_filter, Hd).
  destruct (filter _ _) as [|o [|o2 l]]; [destruct I|eauto|]. exfalso. pose proof (O o (or_introl eq_refl)). pose proof (O o2 (or_intror (or_introl eq_refl))).
  inversion D as [|? ? N _]; subst. apply N. left. congruence.
Qed.
Lemma local_twice : ~ (forall z cands w n, (forall s, In (z s) cands) -> NoDup cands -> shown z w -> exists t, time_local z cands (Ok (w, n)) = Ok t).
Proof.
  intros H. destruct (H (fun s => if s <? 1000000 then 3600 else 0) [3600; 0] 1001800 0) as (t & E).
  - intros s. destruct (s <? 1000000); cbn; auto.
  - repeat constructor; cbn; intuition discriminate.
  - exists 1001800. reflexivity.
  - discriminate E.
Qed.
Lemma hour24 : ~ (forall y mon day, MIN_YEAR < y < MAX_YEAR -> 1 <= mon <= 12 -> 1 <= day <= 31 -> exists w, from_args y mon day 24 0 (SRat 0 1) None = Ok w).
Proof. intros H. destruct (H 2000 1 1) as (w & E); [unfold MIN_YEAR, MAX_YEAR; lia|lia..|]. discriminate E. Qed.
Lemma negative_float : ~ (forall y mon day h mi n d w, 0 < d -> from_args y mon day h mi (SFloat n d) None = Ok w -> 0 <= n).
Proof. intros H. specialize (H 2000 1 1 0 0 (-1) 2 (946684800, 0) eq_refl eq_refl). lia. Qed.
Lemma huge_rational : ~ (forall y mon day h mi n d w, 0 < d -> from_args y mon day h mi (SRat n d) None = Ok w -> n / d <= 60).
Proof. intros H. specialize (H 2000 1 1 0 0 (2 ^ 70 + 1) 2 (946684800, 500000000) eq_refl eq_refl). vm_compute in H. congruence. Qed.
Lemma far_year : ~ (forall y mon day h mi, in_month mon day h mi -> exists w, from_args y mon day h mi (SRat 0 1) None = Ok w).
Proof. intros H. destruct (H 300000 1 1 0 0) as (w & E); [unfold in_month; lia|]. discriminate E. Qed.

Ltac easy_in := vm_compute; intuition congruence.
Ltac nope H := vm_compute in H; discriminate H.
Lemma diff_panics : ~ (forall t u, good t -> good u -> sub_time t u = Ok (instant t - instant u)).
Proof. intros H. specialize (H (mkT true 10413792000 0 0) (mkT true 0 0 0) ltac:(easy_in) ltac:(easy_in)). nope H. Qed.
Lemma add_far : ~ (forall t n d v, good t -> 0 < d -> whole_ns n d v -> MIN_SEC <= (instant t + v) / 1000000000 <= MAX_SEC -> exists u, add t n d = Ok u).
Proof. intros H. destruct (H (mkT true 0 0 0) 10000000000 1 10000000000000000000 ltac:(easy_in) ltac:(easy_in) ltac:(easy_in) ltac:(easy_in)) as (u & E). nope E. Qed.
Lemma sub_is_not_add : ~ (forall t n d, good t -> 0 < d -> sub_num t n d = add t (- n) d).
Proof. intros H. specialize (H (mkT true 0 0 0) 1 10000000000 ltac:(easy_in) ltac:(easy_in)). nope H. Qed.
Lemma add_loses : ~ (forall t a b d u v, good t -> 0 < d -> add t a d = Ok u -> add u b d = Ok v -> add t (a + b) d = Ok v).
Proof. intros H. specialize (H (mkT true 0 0 0) 1 1 2000000000 (mkT true 0 0 0) (mkT true 0 0 0) ltac:(easy_in) ltac:(easy_in) ltac:(easy_in) ltac:(easy_in)). nope H. Qed.
Lemma add_panics : ~ (forall t n d, good t -> 0 < d -> add t n d <> Panic).
Proof. intros H. apply (H (mkT true MAX_SEC 0 0) 1 1 ltac:(easy_in) ltac:(easy_in)). vm_compute. reflexivity. Qed.

Lemma year_1899 : ~ (forall z cands t, good t -> utc t = true -> off t = 0 -> marshal_load z cands (marshal_dump t) = Ok t).
Proof. intros H. specialize (H (fun _ => 0) [0] (mkT true (-2240524800) 0 0) ltac:(easy_in) eq_refl eq_refl). nope H. Qed.
Lemma year_1899_reads : exists t, marshal_load (fun _ => 0) [0] (marshal_dump (mkT true (-2240524800) 0 0)) = Ok t /\ year_of (mkT true (-2240524800) 0 0) = 1899 /\ year_of t = 67435.
Proof. eexists. split; [vm_compute; reflexivity|]. split; vm_compute; reflexivity. Qed.
Lemma gap_load : ~ (forall z cands t, good t -> 1900 <= year_of t <= 67435 -> -86400 < off t < 86400 -> utc t = false -> (forall s, In (z s) cands) ->
  marshal_load z cands (marshal_dump t) = Ok t).
Proof.
  intros H. specialize (H (fun s => if s <? 1000000 then 0 else 3600) [0; 3600] (mkT false 1001800 0 0) ltac:(easy_in) ltac:(easy_in) ltac:(easy_in) eq_refl).
  assert (E : Raise = Ok (mkT false 1001800 0 0)); [|discriminate E]. rewrite <- H; [vm_compute; reflexivity|].
  intros s. destruct (s <? 1000000); cbn; auto.
Qed.
Lemma payload_local : ~ (forall t, good t -> 1900 <= year_of t <= 67435 -> -86400 < off t < 86400 -> ruby_payload t (payload (marshal_dump t))).
Proof. intros H. destruct (H (mkT false 0 0 3600) ltac:(easy_in) ltac:(easy_in) ltac:(easy_in)) as (_ & _ & W & _). nope W. Qed.
Lemma legacy : ~ (forall z cands l t, load z cands l = Ok t -> ns t < 1000000000).
Proof. intros H. specialize (H (fun _ => 0) [0] (le32 59 ++ le32 1500000) (mkT true 59 1500000000 0) ltac:(easy_in)). cbn in H. lia. Qed.

Lemma colons : ~ (forall s o, parse_offset s = Ok o -> s = [85; 84; 67] \/ length s = 1%nat \/ exists neg h m x f, s = offset_text neg h m x f).
Proof.
  intros H. specialize (H [43; 48; 58; 57; 58; 48; 48] 32400 eq_refl). destruct H as [H|[H|(neg & h & m & x & f & H)]]; try discriminate H.
  unfold offset_text, ruby_two, ruby_digit in H. destruct f; cbn [app] in H; try discriminate H; pose proof (Z.mod_pos_bound h 10 ltac:(lia)) as B; apply (f_equal (fun l => nth 2 l 0)) in H; cbn [nth] in H; lia.
Qed.
Lemma year_wraps : ~ (forall z cands t y, (forall s, z s = 0) -> cands = [0] ->
  time_text z cands (dec y ++ [45; 48; 49; 45; 48; 49; 32; 48; 48; 58; 48; 48; 58; 48; 48]) None None = Ok t -> 1000 <= y < 10 ^ 18 -> year_of t = y).
Proof.
  intros H. specialize (H (fun _ => 0) [0] (mkT false 946684800 0 0) 4294969296 (fun _ => eq_refl) eq_refl eq_refl ltac:(lia)). vm_compute in H. discriminate H.
Qed.
Lemma text_60 : ~ (forall z cands h mi s, 0 <= h <= 23 -> 0 <= mi <= 59 -> 0 <= s <= 60 ->
  exists t, time_text z cands ([50; 48; 48; 48; 45; 48; 49; 45; 48; 49; 32] ++ ruby_two h ++ 58 :: ruby_two mi ++ 58 :: ruby_two s ++ [90]) None None = Ok t).
Proof. intros H. destruct (H (fun _ => 0) [0] 0 0 60) as (t & E); [lia..|]. discriminate E. Qed.
Lemma milli_width : ~ (forall n w, 0 <= n < 1000000000 -> (1 <= w)%nat -> format_milli n (Z.of_nat w) = decimals w n).
Proof. intros H. specialize (H 123456789 6%nat ltac:(lia) ltac:(lia)). discriminate H. Qed.
Lemma iso_utc : ~ (forall z cands t, good t -> 0 <= year_of t <= MAX_YEAR -> utc t = true -> off t = 0 -> time_text z cands (iso8601 t 9) None None = Ok t).
Proof. intros H. specialize (H (fun _ => 0) [0] (mkT true 0 0 0) ltac:(easy_in) ltac:(easy_in) eq_refl eq_refl). nope H. Qed.
