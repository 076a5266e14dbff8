(** Characters, their count, and the parts of a string. *)
From Coq Require Import ZArith List Bool Lia Arith.
From Verif Require Import Utf8Model Utf8Spec Utf8Proofs IdModel StrModel StrSpec StrProofs StrSafeProofs StrRightProofs StrCharModel.
From Verif Require StrCharSpec.
Import ListNotations.
Open Scope Z_scope.

(** ** Offsets of characters. *)
Definition off (k : nat) (cs : list (list Z)) : nat := length (concat (firstn k cs)).
Lemma off_0 cs : off 0 cs = 0%nat. Proof. reflexivity. Qed.
Lemma off_S k c cs : off (S k) (c :: cs) = (length c + off k cs)%nat.
Proof. unfold off. cbn. apply app_length. Qed.
Lemma off_all k cs : (length cs <= k)%nat -> off k cs = length (concat cs).
Proof. intro h. unfold off. rewrite firstn_all2 by exact h. reflexivity. Qed.
Lemma off_le k cs : (off k cs <= length (concat cs))%nat.
Proof. unfold off. rewrite <- (firstn_skipn k cs) at 2. rewrite concat_app, app_length. lia. Qed.
Lemma concat_firstn k cs : concat (firstn k cs) = firstn (off k cs) (concat cs).
Proof.
  unfold off. rewrite <- (firstn_skipn k cs) at 3. rewrite concat_app.
  rewrite firstn_app, firstn_all, Nat.sub_diag, firstn_O, app_nil_r. reflexivity.
Qed.
Lemma concat_skipn k cs : concat (skipn k cs) = skipn (off k cs) (concat cs).
Proof.
  unfold off. rewrite <- (firstn_skipn k cs) at 3. rewrite concat_app.
  rewrite skipn_app, skipn_all, Nat.sub_diag, skipn_O. reflexivity.
Qed.
Lemma off_add a l cs : off (a + l) cs = (off a cs + off l (skipn a cs))%nat.
Proof.
  revert cs. induction a as [|a IH]; intro cs; [reflexivity|]. destruct cs as [|c cs]; [destruct l; reflexivity|].
  cbn [plus skipn]. rewrite !off_S, IH. lia.
Qed.
(** The bytes of the characters [k ... k+l]. *)
Lemma part_bytes cs k l : slice (concat cs) (off k cs) (off (k + l) cs) = concat (firstn l (skipn k cs)).
Proof.
  unfold slice. rewrite concat_firstn, concat_skipn, off_add. f_equal. lia.
Qed.

Lemma walk_in cs : forall i p index len q total, total = p + Z.of_nat (length (concat cs)) -> index < i < index + len ->
  gr_walk cs i p index len (Some q) total = (Some q, p + Z.of_nat (off (Z.to_nat (index + len - i)) cs)).
Proof.
  induction cs as [|c cs IH]; intros i p index len q total ht hi; cbn [gr_walk].
  - cbn in ht. rewrite off_all by (cbn; lia). cbn. f_equal. lia.
  - rewrite (proj2 (Z.eqb_neq i index)) by lia. cbn [andb].
    destruct (Z.eqb_spec (i + 1) (index + len)) as [e|e].
    + replace (Z.to_nat (index + len - i)) with 1%nat by lia. rewrite off_S, off_0. f_equal. lia.
    + cbn [concat] in ht. rewrite app_length in ht.
      rewrite IH; [|lia|lia]. replace (Z.to_nat (index + len - i)) with (S (Z.to_nat (index + len - (i + 1)))) by lia. rewrite off_S. f_equal. lia.
Qed.
Lemma walk_out cs : forall i p index len total, total = p + Z.of_nat (length (concat cs)) -> 0 <= len -> i <= index ->
  gr_walk cs i p index len None total =
  if (index - i <? Z.of_nat (length cs))
  then (Some (p + Z.of_nat (off (Z.to_nat (index - i)) cs)), p + Z.of_nat (off (Z.to_nat (index - i + len)) cs))
  else (None, total).
Proof.
  induction cs as [|c cs IH]; intros i p index len total ht hl hi; cbn [gr_walk].
  - rewrite (proj2 (Z.ltb_ge (index - i) (Z.of_nat (length (@nil (list Z)))))) by (cbn; lia). reflexivity.
  - cbn [concat] in ht. rewrite app_length in ht. destruct (Z.eqb_spec i index) as [e|e]; cbn [andb].
    + subst index. rewrite Z.sub_diag. rewrite (proj2 (Z.ltb_lt 0 (Z.of_nat (length (c :: cs))))) by (cbn [length]; lia).
      change (Z.to_nat 0) with 0%nat. rewrite off_0. cbn [Z.of_nat]. rewrite Z.add_0_r, Z.add_0_l.
      destruct (Z.eqb_spec len 0) as [e0|e0]; [subst len; change (Z.to_nat 0) with 0%nat; rewrite off_0; f_equal; lia|].
      destruct (Z.eqb_spec (i + 1) (i + len)) as [e1|e1].
      * replace (Z.to_nat len) with 1%nat by lia. rewrite off_S, off_0. f_equal. lia.
      * rewrite walk_in; [|lia|lia]. replace (Z.to_nat len) with (S (Z.to_nat (i + len - (i + 1)))) by lia. rewrite off_S. f_equal. lia.
    + rewrite IH; [|lia|lia|lia]. cbn [length].
      destruct (Z.ltb_spec (index - (i + 1)) (Z.of_nat (length cs))) as [q|q].
      * rewrite (proj2 (Z.ltb_lt (index - i) (Z.of_nat (S (length cs))))) by lia.
        replace (Z.to_nat (index - i)) with (S (Z.to_nat (index - (i + 1)))) by lia.
        replace (Z.to_nat (index - i + len)) with (S (Z.to_nat (index - (i + 1) + len))) by lia. rewrite !off_S. f_equal; [f_equal|]; lia.
      * rewrite (proj2 (Z.ltb_ge (index - i) (Z.of_nat (S (length cs))))) by lia. reflexivity.
Qed.

(** ** Characters of a fixed width. *)
Lemma fixed_off e u (P : list Z -> Prop) : (1 <= u)%nat -> (forall b, P b -> b <> [] -> char_w e b = u) -> (forall b, P b -> P (skipn u b)) ->
  forall b, P b -> forall k, off k (cs_of e b) = Nat.min (k * u) (length b).
Proof.
  intros hu hw hs b. induction b as [b IH] using (well_founded_induction (well_founded_ltof _ (@length Z))).
  intros hp k. destruct b as [|y l] eqn:eb; [rewrite Nat.min_r by (cbn; lia); destruct k; reflexivity|]. rewrite <- eb in *.
  assert (hn : b <> []) by congruence. rewrite cs_step by exact hn. rewrite (hw b hp hn). destruct k as [|k]; [reflexivity|].
  assert (hlen : (length b >= 1)%nat) by (rewrite eb; cbn; lia).
  rewrite off_S, firstn_length. rewrite IH; [|unfold ltof; rewrite skipn_length; lia|apply hs; exact hp].
  rewrite skipn_length. cbn [Nat.mul]. lia.
Qed.
Lemma fixed_len e u (P : list Z -> Prop) : (1 <= u)%nat -> (forall b, P b -> b <> [] -> char_w e b = u) -> (forall b, P b -> P (skipn u b)) ->
  forall b, P b -> (length b <= length (cs_of e b) * u < length b + u)%nat.
Proof.
  intros hu hw hs b. induction b as [b IH] using (well_founded_induction (well_founded_ltof _ (@length Z))).
  intro hp. destruct b as [|y l] eqn:eb; [cbn; lia|]. rewrite <- eb in *.
  assert (hn : b <> []) by congruence. rewrite cs_step by exact hn. rewrite (hw b hp hn). cbn [length].
  assert (hlen : (length b >= 1)%nat) by (rewrite eb; cbn; lia).
  assert (h := IH (skipn u b)). unfold ltof in h. rewrite skipn_length in h. specialize (h ltac:(lia) (hs b hp)).
  cbn [Nat.mul]. generalize dependent (length (cs_of e (skipn u b))). intros m h.
  destruct m as [|m]; [cbn [Nat.mul] in *; lia|]. cbn [Nat.mul] in *. set (t := (m * u)%nat) in *. clearbody t. lia.
Qed.

Definition anyb (b : list Z) : Prop := True.
Definition asc (b : list Z) : Prop := ascii_b b = true.
Lemma asc_skip b u : asc b -> asc (skipn u b). Proof. apply ascii_skipn. Qed.
Lemma asc_w e b : asc b -> match e with Utf16Le | Utf16Be | Utf32Le | Utf32Be => False | _ => True end -> b <> [] -> char_w e b = 1%nat.
Proof.
  intros h he hn. destruct b as [|c r]; [congruence|]. unfold asc in h. cbn in h. apply andb_true_iff in h. destruct h as [h _].
  assert (hc := proj1 (Z.ltb_lt c 128) h). unfold char_w. destruct e; try reflexivity; try contradiction.
  - rewrite h. reflexivity.
  - rewrite (proj2 (Z.eqb_neq c 142)) by lia. rewrite (proj2 (Z.eqb_neq c 143)) by lia. unfold between.
    rewrite (proj2 (Z.leb_gt 161 c)) by lia. reflexivity.
  - unfold between. rewrite (proj2 (Z.leb_gt 129 c)) by lia. rewrite (proj2 (Z.leb_gt 224 c)) by lia. reflexivity.
Qed.

Section S.
Variable jis : list Z -> option nat.

(** ** The number of characters. *)
Lemma lead_head x r n : 0 <= x < 256 -> uw (x :: r) = Some n -> lead x = true.
Proof.
  intros hb h. apply uw_some in h. cbn [utf8_step] in h.
  assert (hx : 0 <= x < 128 \/ 192 <= x < 256).
  { destruct (Z.ltb_spec x 128); [lia|]. unfold between in h.
    destruct (Z.leb_spec 194 x); [lia|]. rewrite (proj2 (Z.leb_gt 224 x)) in h by lia. rewrite (proj2 (Z.leb_gt 240 x)) in h by lia. discriminate h. }
  assert (hi : In x (map Z.of_nat (seq 0 128 ++ seq 192 64))).
  { apply in_map_iff. exists (Z.to_nat x). split; [lia|]. apply in_or_app. rewrite !in_seq. lia. }
  assert (hall : forallb lead (map Z.of_nat (seq 0 128 ++ seq 192 64)) = true) by (vm_compute; reflexivity).
  rewrite forallb_forall in hall. apply hall. exact hi.
Qed.
Lemma filter_none {A} (f : A -> bool) l : (forall i d, (i < length l)%nat -> f (nth i l d) = false) -> filter f l = [].
Proof.
  induction l as [|y l IH]; intro h; [reflexivity|]. cbn. assert (h0 := h 0%nat y ltac:(cbn; lia)). cbn in h0. rewrite h0.
  apply IH. intros i d hi. apply (h (S i) d). cbn. lia.
Qed.
Lemma leads b : Forall (fun x => 0 <= x < 256) b -> utf8_ok b = true -> length (filter lead b) = length (cs_of Utf8 b).
Proof.
  rewrite utf8_ok_wok. induction b as [b IH] using (well_founded_induction (well_founded_ltof _ (@length Z))).
  intros hb h. destruct b as [|y l] eqn:eb; [reflexivity|]. rewrite <- eb in *. assert (hn : b <> []) by congruence.
  rewrite (wok_step uw uw_stable) in h by exact hn. destruct (uw b) as [n|] eqn:e; [|discriminate].
  rewrite cs_step by exact hn. rewrite (char_w_utf8 b n e). cbn [length].
  destruct (uw_stable b n e) as [hl _].
  rewrite <- (firstn_skipn n b) at 1. rewrite filter_app, app_length.
  rewrite (IH (skipn n b)); [|unfold ltof; rewrite skipn_length; lia| |exact h].
  2:{ apply Forall_forall. intros z hz. rewrite Forall_forall in hb. apply hb. rewrite <- (firstn_skipn n b). apply in_or_app. right. exact hz. }
  assert (h1 : length (filter lead (firstn n b)) = 1%nat); [|lia].
  destruct n as [|n]; [lia|]. rewrite eb. cbn [firstn filter].
  rewrite (lead_head y l (S n)); [|rewrite eb in hb; inversion hb; assumption|rewrite <- eb; exact e].
  cbn [length]. f_equal. rewrite filter_none; [reflexivity|]. intros i d hi. rewrite firstn_length in hi.
  rewrite (nth_indep _ d 0) by (rewrite firstn_length; exact hi).
  assert (hc := step_conts b (S n) (proj1 (uw_some b (S n)) e) (S i)). rewrite eb in hc. cbn [nth] in hc.
  assert (hnth : nth i (firstn n l) 0 = nth i l 0).
  { rewrite <- (firstn_skipn n l) at 2. rewrite app_nth1 by (rewrite firstn_length; exact hi). reflexivity. }
  rewrite hnth. apply hc. lia.
Qed.

Lemma ceil_len n k u : (1 <= u)%nat -> (n <= k * u < n + u)%nat -> k = (n / u + (if (0 <? n mod u)%nat then 1 else 0))%nat.
Proof.
  intros hu h. assert (hd := Nat.div_mod n u ltac:(lia)). assert (hm := Nat.mod_upper_bound n u ltac:(lia)).
  set (q := (n / u)%nat) in *. set (m := (n mod u)%nat) in *. clearbody q m.
  destruct (Nat.ltb_spec 0 m).
  - assert (k = (q + 1)%nat); [|lia]. nia.
  - assert (m = 0)%nat by lia. subst m. assert (k = q); [|lia]. nia.
Qed.
Lemma char_length_right s : safeb s -> Forall (fun x => 0 <= x < 256) (sb s) -> se s <> Iso2022Jp ->
  char_length jis s = length (chars s).
Proof.
  intros hs hb hj. unfold char_length. change (chars s) with (cs_of (se s) (sb s)).
  assert (one_ : forall e, match e with Ascii8 | UsAscii | Iso8859 _ | Other _ | NamedByte _ => True | _ => False end -> length (sb s) = length (cs_of e (sb s))).
  { intros e he. assert (h := fixed_len e 1 anyb ltac:(lia)). specialize (h ltac:(intros b _ hn; destruct b; [congruence|]; destruct e; try contradiction; reflexivity) ltac:(auto) (sb s) I). lia. }
  assert (asc_ : forall e, match e with Utf16Le | Utf16Be | Utf32Le | Utf32Be => False | _ => True end -> ascii_b (sb s) = true -> length (sb s) = length (cs_of e (sb s))).
  { intros e he ha. assert (h := fixed_len e 1 asc ltac:(lia) ltac:(intros b q hn; apply asc_w; assumption) ltac:(intros; apply asc_skip; assumption) (sb s) ha). lia. }
  assert (w_ : forall e u, (match e with Utf16Le | Utf16Be => u = 2 | Utf32Le | Utf32Be => u = 4 | _ => False end)%nat ->
     length (cs_of e (sb s)) = (length (sb s) / u + (if (0 <? length (sb s) mod u)%nat then 1 else 0))%nat).
  { intros e u he. assert (hu : (1 <= u)%nat) by (destruct e; try contradiction; subst u; lia). apply ceil_len; [exact hu|].
    apply (fixed_len e u anyb hu); [|auto|exact I]. intros b _ hn. destruct b; [congruence|]. destruct e; try contradiction; subst u; reflexivity. }
  destruct (se s) eqn:es; try (apply one_; exact I); try congruence.
  - destruct (code_range jis s) eqn:k; try reflexivity; [apply asc_; [exact I|]|].
    + apply (safe_ascii jis s hs). rewrite k. reflexivity.
    + apply leads; [exact hb|]. apply (safe_utf8t jis s hs es). rewrite k. reflexivity.
  - rewrite (w_ Utf16Le 2%nat eq_refl). f_equal. assert (hm := Nat.mod_upper_bound (length (sb s)) 2 ltac:(lia)).
    set (m := (length (sb s) mod 2)%nat) in *. destruct m as [|[|m]]; try lia; reflexivity.
  - rewrite (w_ Utf16Be 2%nat eq_refl). f_equal. assert (hm := Nat.mod_upper_bound (length (sb s)) 2 ltac:(lia)).
    set (m := (length (sb s) mod 2)%nat) in *. destruct m as [|[|m]]; try lia; reflexivity.
  - rewrite (w_ Utf32Le 4%nat eq_refl). reflexivity.
  - rewrite (w_ Utf32Be 4%nat eq_refl). reflexivity.
  - destruct (code_range jis s) eqn:k; try reflexivity. apply asc_; [exact I|].
    apply (safe_ascii jis s hs). rewrite k. reflexivity.
  - destruct (code_range jis s) eqn:k; try reflexivity. apply asc_; [exact I|].
    apply (safe_ascii jis s hs). rewrite k. reflexivity.
Qed.

(** ** [get_range] delimits the characters asked for. *)
Definition wide (e : encoding) : bool := match e with Utf16Le | Utf16Be | Utf32Le | Utf32Be => true | _ => false end.
Lemma unit_off s u : safeb s -> unit_of jis s = Some u -> 1 <= u <= 4 /\ (wide (se s) = false -> u = 1) /\
  (forall k, off k (chars s) = Nat.min (k * Z.to_nat u) (length (sb s))) /\
  (length (sb s) <= length (chars s) * Z.to_nat u < length (sb s) + Z.to_nat u)%nat.
Proof.
  intros hs hu. change (chars s) with (cs_of (se s) (sb s)).
  assert (any_ : forall u, (1 <= u)%nat -> (forall b, b <> [] -> char_w (se s) b = u) ->
     (forall k, off k (cs_of (se s) (sb s)) = Nat.min (k * u) (length (sb s))) /\ (length (sb s) <= length (cs_of (se s) (sb s)) * u < length (sb s) + u)%nat).
  { intros v hv hw. split; [intro k; apply (fixed_off (se s) v anyb hv); auto; exact I|apply (fixed_len (se s) v anyb hv); auto; exact I]. }
  unfold unit_of in hu. destruct (se s) eqn:es; try discriminate hu.
  2:{ destruct (code_range jis s) eqn:k; try discriminate hu. injection hu as <-. split; [lia|]. split; [auto|].
      assert (ha : asc (sb s)) by (apply (safe_ascii jis s hs); rewrite k; reflexivity).
      change (Z.to_nat 1) with 1%nat.
      split; [intro j; apply (fixed_off Utf8 1 asc ltac:(lia)); auto using asc_skip|apply (fixed_len Utf8 1 asc ltac:(lia)); auto using asc_skip];
        intros b hb hn; apply asc_w; auto. }
  all: injection hu as <-; (split; [lia|]); (split; [cbn [wide]; intro; congruence || reflexivity|]).
  all: apply any_; [lia|]; intros b hn; destruct b; [congruence|reflexivity].
Qed.

Definition small (s : str) : Prop := Z.of_nat (length (sb s)) < 2 ^ 60.
Lemma get_range_right s k len : safeb s -> Forall (fun x => 0 <= x < 256) (sb s) -> se s <> Iso2022Jp -> small s ->
  0 <= k <= Z.of_nat (length (chars s)) -> 0 <= len <= 2 ^ 63 -> (wide (se s) = false \/ len < 2 ^ 60) ->
  get_range jis s k len = (Z.of_nat (off (Z.to_nat k) (chars s)), Z.of_nat (off (Z.to_nat (k + len)) (chars s))).
Proof.
  intros hs hb hj hsm hk hl hw. unfold get_range. destruct (unit_of jis s) as [u|] eqn:eu.
  - destruct (unit_off s u hs eu) as (h1 & h2 & h3 & h4). rewrite !h3. unfold small in hsm.
    assert (hku : k * u <= Z.of_nat (length (sb s)) + u) by nia.
    set (n := length (sb s)) in *. clearbody n.
    change (2 ^ 63) with 9223372036854775808 in *. change (2 ^ 60) with 1152921504606846976 in *.
    assert (w1 : w64 (k * u) = k * u) by (unfold w64; apply Z.mod_small; change (2 ^ 64) with 18446744073709551616; nia).
    assert (w2 : w64 (k + len) = k + len).
    { unfold w64; apply Z.mod_small; change (2 ^ 64) with 18446744073709551616.
      destruct hw as [hw|hw]; [rewrite (h2 hw) in *; lia|nia]. }
    assert (w3 : w64 ((k + len) * u) = (k + len) * u \/ (k + len) * u = 18446744073709551616).
    { destruct (Z.eq_dec ((k + len) * u) 18446744073709551616) as [q|q]; [right; exact q|left]. unfold w64; apply Z.mod_small; change (2 ^ 64) with 18446744073709551616.
      destruct hw as [hw|hw]; [rewrite (h2 hw) in *; lia|nia]. }
    rewrite w1, w2. f_equal.
    + nia.
    + destruct w3 as [w3|w3].
      * rewrite w3. nia.
      * exfalso. destruct hw as [hw|hw]; [rewrite (h2 hw) in *|]; nia.
  - rewrite (walk_out (chars s) 0 0 k len); [|rewrite chars_all; lia|lia|lia]. rewrite Z.sub_0_r.
    destruct (Z.ltb_spec k (Z.of_nat (length (chars s)))) as [q|q].
    + f_equal.
    + assert (k = Z.of_nat (length (chars s))) by lia. rewrite (char_length_right s hs hb hj). rewrite (proj2 (Z.eqb_eq k _) H).
      rewrite !off_all by lia. rewrite chars_all. reflexivity.
Qed.
End S.
