(** Index expressions select the characters they should; what the characters are. *)
From Coq Require Import ZArith List Bool Lia Arith.
From Verif Require Import Utf8Model Utf8Spec Utf8Proofs IdModel StrModel StrSpec StrProofs StrSafeProofs StrRightProofs StrCharModel StrCharProofs StrCharSpec.
Import ListNotations.
Open Scope Z_scope.

(** A string made of the characters [cs], in the encoding [e]. *)
Definition gives (e : encoding) (r : option (list (list Z))) (x : ires) : Prop :=
  match r, x with
  | None, RNil => True
  | Some cs, RStr s => sb s = concat cs /\ se s = e
  | _, _ => False
  end.

Section S.
Variable jis : list Z -> option nat.

Definition usable (s : str) : Prop :=
  safeb s /\ Forall (fun x => 0 <= x < 256) (sb s) /\ se s <> Iso2022Jp /\ small s.

Lemma conv_pos s i : usable s -> conv_char jis s i =
  let n := Z.of_nat (length (chars s)) in let k := pos n i in if (k <? 0) || (n <? k) then None else Some k.
Proof.
  intros (h1 & h2 & h3 & _). unfold conv_char, pos. rewrite (char_length_right jis s h1 h2 h3). cbn zeta.
  set (n := Z.of_nat (length (chars s))). assert (0 <= n) by (subst n; lia). clearbody n.
  destruct (Z.leb_spec 0 i).
  - rewrite (proj2 (Z.ltb_ge i 0)) by lia. rewrite (proj2 (Z.ltb_ge i 0)) by lia. cbn [orb].
    destruct (Z.leb_spec i n); [rewrite (proj2 (Z.ltb_ge n i)) by lia|rewrite (proj2 (Z.ltb_lt n i)) by lia]; reflexivity.
  - rewrite (proj2 (Z.ltb_lt i 0)) by lia. rewrite (Z.add_comm n i). rewrite (proj2 (Z.ltb_ge n (i + n))) by lia. rewrite orb_false_r. reflexivity.
Qed.

Lemma sub_gives s k len : usable s -> 0 <= k <= Z.of_nat (length (chars s)) -> 0 <= len <= 2 ^ 63 -> (wide (se s) = false \/ len < 2 ^ 60) ->
  gives (se s) (Some (firstn (Z.to_nat len) (skipn (Z.to_nat k) (chars s)))) (sub_res jis s (get_range jis s k len)).
Proof.
  intros (h1 & h2 & h3 & h4) hk hl hw. rewrite (get_range_right jis s k len h1 h2 h3 h4 hk hl hw). unfold sub_res.
  assert (hle : (off (Z.to_nat (k + len)) (chars s) <= length (sb s))%nat) by (rewrite <- (chars_all s); apply off_le).
  assert (hle2 : (off (Z.to_nat k) (chars s) <= off (Z.to_nat (k + len)) (chars s))%nat).
  { rewrite Z2Nat.inj_add by lia. rewrite off_add. lia. }
  rewrite (proj2 (Z.leb_le _ _)) by lia. rewrite (proj2 (Z.leb_le _ _)) by lia. cbn [andb gives substring sb se]. split; [|reflexivity].
  rewrite !Nat2Z.id. rewrite Z2Nat.inj_add by lia. rewrite <- (chars_all s) at 1. apply part_bytes.
Qed.
Lemma firstn_min {A} (l : list A) a n : 0 <= a -> Z.of_nat (length l) <= n -> firstn (Z.to_nat (Z.min a n)) l = firstn (Z.to_nat a) l.
Proof.
  intros ha hn. destruct (Z.min_spec a n) as [[h ->]|[h ->]]; [reflexivity|]. rewrite !firstn_all2; [reflexivity|lia|lia].
Qed.

Lemma char_nonempty e b : Forall (fun c => c <> []) (cs_of e b).
Proof.
  induction b as [b IH] using (well_founded_induction (well_founded_ltof _ (@length Z))).
  destruct b as [|y l] eqn:eb; [constructor|]. rewrite <- eb in *. assert (hn : b <> []) by congruence.
  rewrite cs_step by exact hn. assert (hw := char_w_pos e b). constructor.
  - rewrite eb. destruct (char_w e (y :: l)) eqn:q; [rewrite <- eb in q; lia|]. discriminate.
  - apply IH. unfold ltof. rewrite skipn_length. rewrite eb in *. cbn [length] in *. lia.
Qed.

Lemma index1_right s i : usable s -> gives (se s) (one (chars s) i) (index1 jis s i).
Proof.
  intro hu. unfold index1, one. rewrite (conv_pos s i hu). cbn zeta. set (n := Z.of_nat (length (chars s))) in *. set (k := pos n i).
  destruct (Z.ltb_spec k 0) as [a|a]; [rewrite (proj2 (Z.leb_gt 0 k)) by lia; exact I|]. rewrite (proj2 (Z.leb_le 0 k)) by lia. cbn [orb andb].
  destruct (Z.ltb_spec n k) as [b|b]; [rewrite (proj2 (Z.ltb_ge k n)) by lia; exact I|].
  assert (hg := sub_gives s k 1 hu ltac:(lia) ltac:(lia) ltac:(right; lia)).
  destruct hu as (h1 & h2 & h3 & h4).
  assert (er := get_range_right jis s k 1 h1 h2 h3 h4 ltac:(lia) ltac:(lia) ltac:(right; lia)).
  rewrite er in *. cbn [fst snd] in *.
  destruct (Z.ltb_spec k n) as [c|c].
  - rewrite (proj2 (Z.ltb_lt _ _)); [exact hg|].
    rewrite Z2Nat.inj_add, off_add by lia. change (Z.to_nat 1) with 1%nat.
    destruct (skipn (Z.to_nat k) (chars s)) as [|c0 r] eqn:es.
    + assert (hl := skipn_length (Z.to_nat k) (chars s)). rewrite es in hl. cbn in hl. lia.
    + assert (hc := char_nonempty (se s) (sb s)). change (cs_of (se s) (sb s)) with (chars s) in hc. rewrite Forall_forall in hc.
      assert (hin : In c0 (chars s)) by (rewrite <- (firstn_skipn (Z.to_nat k) (chars s)); apply in_or_app; right; rewrite es; left; reflexivity).
      specialize (hc c0 hin). rewrite off_S, off_0. destruct c0; [congruence|]. cbn [length]. lia.
  - assert (k = n) by lia. rewrite (proj2 (Z.ltb_ge _ _)); [exact I|]. rewrite !off_all by lia. lia.
Qed.
Lemma index2_right s i len : usable s -> len <= 2 ^ 63 -> (wide (se s) = false \/ len < 2 ^ 60) ->
  gives (if len =? 0 then Utf8 else se s) (some (chars s) i len) (index2 jis s i len).
Proof.
  intros hu hl hw. unfold index2, some. rewrite (conv_pos s i hu). cbn zeta. set (n := Z.of_nat (length (chars s))) in *. set (k := pos n i).
  destruct (Z.ltb_spec k 0) as [a|a]; [rewrite orb_true_r; exact I|]. destruct (Z.ltb_spec n k) as [b|b]; [rewrite !orb_true_r; exact I|]. rewrite !orb_false_r.
  destruct (Z.eqb_spec len 0) as [e|e].
  - subst len. cbn [Z.ltb Z.compare]. rewrite Z.min_l by (subst n; lia). cbn. split; reflexivity.
  - destruct (Z.ltb_spec len 0) as [c|c]; [exact I|]. rewrite firstn_min; [|lia|rewrite skipn_length; lia].
    apply sub_gives; auto; lia.
Qed.
(** The end of a range is not the largest 64-bit integer, and not huge for UTF-16 and UTF-32. *)
Definition end_ok (e : encoding) (b : option Z) (excl : bool) : Prop :=
  match b with None => True | Some b => (b < 2 ^ 63 - 1 \/ excl = true) /\ (wide e = false \/ b < 2 ^ 59) end.
Definition i64 (o : option Z) : Prop := match o with None => True | Some z => - 2 ^ 63 <= z < 2 ^ 63 end.
Lemma s64_id z : - 2 ^ 63 <= z < 2 ^ 63 -> s64 z = z.
Proof.
  intro h. unfold s64. change (2 ^ 63) with 9223372036854775808 in *. change (2 ^ 64) with 18446744073709551616.
  destruct (Z_lt_dec z 0).
  - rewrite <- (Z_mod_plus_full z 1), Z.mod_small by lia. rewrite (proj2 (Z.ltb_ge _ _)) by lia. lia.
  - rewrite Z.mod_small by lia. rewrite (proj2 (Z.ltb_lt _ _)) by lia. reflexivity.
Qed.
Lemma chars_count s : (length (chars s) <= length (sb s))%nat.
Proof.
  rewrite <- (chars_all s). assert (h := char_nonempty (se s) (sb s)). change (cs_of (se s) (sb s)) with (chars s) in h.
  induction h as [|c l hc _ IH]; [cbn; lia|]. cbn. rewrite app_length. destruct c; [congruence|]. cbn [length]. lia.
Qed.
Lemma range_right s a b excl : usable s ->
  i64 a -> i64 b -> end_ok (se s) b excl ->
  gives (se s) (between (chars s) a b excl) (index_range jis s a b excl).
Proof.
  intros hu ha hb he. unfold index_range, between. cbv zeta. assert (hu2 := hu). destruct hu as (h1 & h2 & h3 & h4).
  rewrite (char_length_right jis s h1 h2 h3). assert (hcc := chars_count s). unfold small in h4.
  set (n := Z.of_nat (length (chars s))) in *.
  assert (hn0 : 0 <= n < 2 ^ 60) by lia.
  assert (eb : match a with None => 0 | Some a0 => if a0 <? 0 then a0 + n else a0 end = match a with None => 0 | Some a0 => pos n a0 end).
  { destruct a; reflexivity. }
  rewrite eb. set (k := match a with None => 0 | Some a0 => pos n a0 end). clear eb.
  destruct ((k <? 0) || (n <? k)) eqn:q; [exact I|]. apply orb_false_iff in q. destruct q as [q1 q2]. apply Z.ltb_ge in q1, q2.
  change (2 ^ 63) with 9223372036854775808 in *. change (2 ^ 60) with 1152921504606846976 in *.
  set (e := match b with None => n | Some b0 => pos n b0 + (if excl then 0 else 1) end).
  assert (he2 : match b with None => n | Some b0 => if excl then if b0 <? 0 then b0 + n else b0 else s64 ((if b0 <? 0 then b0 + n else b0) + 1) end = e).
  { unfold e. destruct b as [b|]; [|reflexivity]. cbn [i64 end_ok] in *. unfold pos. change (2 ^ 63) with 9223372036854775808 in *.
    destruct excl; [destruct (b <? 0); lia|]. apply s64_id. change (2 ^ 63) with 9223372036854775808. destruct he as [[he|he] _]; [|discriminate].
    destruct (Z.ltb_spec b 0); lia. }
  rewrite he2. assert (hr : - 9223372036854775808 <= e - k < 9223372036854775808 /\ (wide (se s) = false \/ e - k < 1152921504606846976)).
  { unfold e. destruct b as [b|]; cbn [i64 end_ok] in *; unfold pos; change (2 ^ 63) with 9223372036854775808 in *; change (2 ^ 59) with 576460752303423488 in *.
    - destruct he as [he1 he3]. destruct (Z.ltb_spec b 0).
      + split; [destruct excl; lia|]. right. destruct excl; lia.
      + split; [destruct excl; destruct he1 as [he1|he1]; (discriminate || lia)|]. destruct he3 as [he3|he3]; [left; exact he3|]. right. destruct excl; lia.
    - split; [lia|]. right; lia. }
  destruct hr as [hr1 hr2]. rewrite s64_id by (change (2 ^ 63) with 9223372036854775808; lia).
  destruct (Z_le_dec (e - k) 0) as [hz|hz].
  - rewrite Z.max_r by lia. assert (h0 := sub_gives s k 0 hu2 ltac:(lia) ltac:(lia) ltac:(right; lia)).
    replace (Z.to_nat (Z.min (e - k) n)) with 0%nat by lia. exact h0.
  - rewrite Z.max_l by lia. rewrite firstn_min; [|lia|rewrite skipn_length; lia].
    apply sub_gives; auto; change (2 ^ 63) with 9223372036854775808; lia.
Qed.

(** ** [byteslice]. *)
Definition bytes_of (b : list Z) : list (list Z) := map (fun x => [x]) b.
Lemma concat_bytes b : concat (bytes_of b) = b.
Proof. induction b as [|y l IH]; [reflexivity|]. cbn. f_equal. exact IH. Qed.
Lemma bytes_part b k l : concat (firstn l (skipn k (bytes_of b))) = firstn l (skipn k b).
Proof. unfold bytes_of. rewrite skipn_map, firstn_map. apply concat_bytes. Qed.
Lemma sub_bytes s a z : (0 <= a <= z)%Z -> z <= Z.of_nat (length (sb s)) ->
  gives (se s) (Some (firstn (Z.to_nat (z - a)) (skipn (Z.to_nat a) (bytes_of (sb s))))) (sub_res jis s (a, z)).
Proof.
  intros h1 h2. unfold sub_res. rewrite (proj2 (Z.leb_le a z)) by lia. rewrite (proj2 (Z.leb_le z _)) by lia. cbn [andb gives substring sb se].
  split; [|reflexivity]. rewrite bytes_part. unfold slice. rewrite Z2Nat.inj_sub by lia. reflexivity.
Qed.
Lemma bs_start_pos n i : 0 <= n -> bs_start n i = let k := pos n i in if (k <? 0) || (n <? k) then None else Some k.
Proof.
  intro hn. unfold bs_start, pos. cbn zeta. destruct (Z.leb_spec 0 i).
  - rewrite (proj2 (Z.ltb_ge i 0)) by lia. rewrite (proj2 (Z.ltb_ge i 0)) by lia. cbn [orb].
    destruct (Z.leb_spec i n); [rewrite (proj2 (Z.ltb_ge n i)) by lia|rewrite (proj2 (Z.ltb_lt n i)) by lia]; reflexivity.
  - rewrite (proj2 (Z.ltb_lt i 0)) by lia. rewrite (Z.add_comm n i). rewrite (proj2 (Z.ltb_ge n (i + n))) by lia. rewrite orb_false_r. reflexivity.
Qed.
Lemma len_bytes b : length (bytes_of b) = length b. Proof. apply map_length. Qed.
Lemma byteslice1_right s i : gives (se s) (one (bytes_of (sb s)) i) (byteslice1 jis s s i).
Proof.
  unfold byteslice1, one, pos. cbv zeta. rewrite len_bytes. set (n := Z.of_nat (length (sb s))). assert (0 <= n) by lia.
  assert (key : forall k, 0 <= k < n -> gives (se s) (Some (firstn 1 (skipn (Z.to_nat k) (bytes_of (sb s)))))
                                          (if k + 1 <=? n then RStr (substring jis s (Z.to_nat k) (Z.to_nat (k + 1))) else RCrash)).
  { intros k hk. assert (h := sub_bytes s k (k + 1) ltac:(lia) ltac:(lia)). unfold sub_res in h.
    rewrite (proj2 (Z.leb_le k (k + 1))) in h by lia. cbn [andb] in h. fold n in h. replace (k + 1 - k) with 1 in h by lia. exact h. }
  destruct (Z.leb_spec 0 i).
  - rewrite (proj2 (Z.ltb_ge i 0)) by lia. rewrite (proj2 (Z.leb_le 0 i)) by lia. cbn [andb]. destruct (Z.ltb_spec i n); [apply key; lia|exact I].
  - rewrite (proj2 (Z.ltb_lt i 0)) by lia. rewrite (Z.add_comm n i). destruct (Z.ltb_spec (i + n) 0).
    + rewrite (proj2 (Z.leb_gt 0 (i + n))) by lia. exact I.
    + rewrite (proj2 (Z.leb_le 0 (i + n))) by lia. rewrite (proj2 (Z.ltb_lt (i + n) n)) by lia. cbn [andb]. apply key. lia.
Qed.
Lemma byteslice2_right s i len : small s -> len < 2 ^ 63 -> gives (se s) (some (bytes_of (sb s)) i len) (byteslice2 jis s s i len).
Proof.
  intros hs hl. unfold byteslice2, some. cbv zeta. rewrite len_bytes, bs_start_pos by lia. cbv zeta. unfold small in hs.
  set (n := Z.of_nat (length (sb s))) in *. set (k := pos n i).
  destruct (Z.ltb_spec len 0) as [c|c]; [exact I|]. cbn [orb].
  destruct ((k <? 0) || (n <? k)) eqn:q; [exact I|]. apply orb_false_iff in q. destruct q as [q1 q2]. apply Z.ltb_ge in q1, q2.
  change (2 ^ 63) with 9223372036854775808 in *. change (2 ^ 60) with 1152921504606846976 in *.
  assert (hw : w64 (k + len) = k + len) by (unfold w64; apply Z.mod_small; change (2 ^ 64) with 18446744073709551616; lia). rewrite hw.
  assert (h := sub_bytes s k (Z.min (k + len) n) ltac:(lia) ltac:(lia)).
  rewrite firstn_min; [|lia|rewrite skipn_length, len_bytes; lia].
  destruct (Z.min_spec (k + len) n) as [[h1 h2]|[h1 h2]]; rewrite h2 in h |- *.
  - replace (k + len - k) with len in h by lia. exact h.
  - rewrite firstn_all2 in h by (rewrite skipn_length, len_bytes; lia). rewrite firstn_all2 by (rewrite skipn_length, len_bytes; lia). exact h.
Qed.
(** A negative end reaches inside the string. *)
Lemma byteslice_range_right s a b excl : small s -> i64 b ->
  match b with Some b => - Z.of_nat (length (sb s)) <= b | None => True end ->
  gives (se s) (between (bytes_of (sb s)) a b excl) (byteslice_range jis s s a b excl).
Proof.
  intros hs hb hneg. unfold byteslice_range, between. cbv zeta. rewrite len_bytes, bs_start_pos by lia. cbv zeta. unfold small in hs.
  set (n := Z.of_nat (length (sb s))) in *.
  assert (ek : pos n match a with Some a0 => a0 | None => 0 end = match a with None => 0 | Some a0 => pos n a0 end) by (destruct a; reflexivity).
  rewrite ek. set (k := match a with None => 0 | Some a0 => pos n a0 end).
  destruct ((k <? 0) || (n <? k)) eqn:q; [exact I|]. apply orb_false_iff in q. destruct q as [q1 q2]. apply Z.ltb_ge in q1, q2.
  assert (key : forall e, gives (se s) (Some (firstn (Z.to_nat (Z.min (e - k) n)) (skipn (Z.to_nat k) (bytes_of (sb s)))))
     (if Z.min e n <? k then RStr (mkS [] (se s) CUnknown) else sub_res jis s (k, Z.min e n))).
  { intro e. destruct (Z.ltb_spec (Z.min e n) k) as [hlt|hge].
    - replace (Z.to_nat (Z.min (e - k) n)) with 0%nat by lia. split; reflexivity.
    - assert (h := sub_bytes s k (Z.min e n) ltac:(lia) ltac:(lia)).
      rewrite firstn_min; [|lia|rewrite skipn_length, len_bytes; lia].
      destruct (Z.min_spec e n) as [[h1 h2]|[h1 h2]]; rewrite h2 in h |- *; [exact h|].
      rewrite firstn_all2 in h by (rewrite skipn_length, len_bytes; lia). rewrite firstn_all2 by (rewrite skipn_length, len_bytes; lia). exact h. }
  destruct b as [b|].
  - unfold pos. destruct (Z.leb_spec 0 b).
    + rewrite (proj2 (Z.ltb_ge b 0)) by lia.
      replace (if excl then b else b + 1) with (b + (if excl then 0 else 1)) by (destruct excl; lia). apply key.
    + rewrite (proj2 (Z.ltb_lt b 0)) by lia. rewrite (proj2 (Z.ltb_ge (n + b) 0)) by lia.
      replace (if excl then n + b else n + b + 1) with (b + n + (if excl then 0 else 1)) by (destruct excl; lia). apply key.
  - assert (h := key n). rewrite Z.min_id in h. exact h.
Qed.
End S.
