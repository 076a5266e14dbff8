(** Marshal.load on arbitrary bytes: it terminates, and where it can panic. *)
From Coq Require Import String Ascii ZArith List Bool Lia.
From Verif Require Import Utf8Model IdModel EncModel MarshalModel MarshalProofs.
From Verif Require ValueModel.
Import ListNotations.
Open Scope Z_scope.
Local Notation len l := (Z.of_nat (length l)).

Definition vin (n : nat) (v : val) : Prop := match v with VRef a => (a < n)%nat | _ => True end.
Lemma vin_le n m v : (n <= m)%nat -> vin n v -> vin m v. Proof. destruct v; cbn; auto. intros. lia. Qed.
Lemma vins_le n m l : (n <= m)%nat -> Forall (vin n) l -> Forall (vin m) l.
Proof. intros h. apply Forall_impl. intros v. now apply vin_le. Qed.
Lemma set_nth_len {A} (l : list A) : forall i x, length (set_nth l i x) = length l.
Proof. induction l as [|y l IH]; intros [|i] x; cbn; auto. Qed.
Lemma Forall_skipn {A} (P : A -> Prop) k l : Forall P l -> Forall P (skipn k l).
Proof. revert k. induction l as [|x l IH]; intros [|k] h; cbn; auto. inversion h; auto. Qed.
Lemma of_le_ascii l : Forall (fun b => 0 <= b < 128) l -> 0 <= of_le l /\ (0 < len l -> of_le l < 128 * 256 ^ (len l - 1)).
Proof.
  induction l as [|b l IH]; [cbn; lia|]. intros h. inversion h as [|? ? hb hl]; subst. apply IH in hl as [h1 h2].
  cbn [of_le length]. split; [lia|]. intros _. rewrite Nat2Z.inj_succ. unfold Z.succ. rewrite Z.add_simpl_r.
  destruct l as [|c l]; [cbn; lia|]. assert (0 < len (c :: l)) as q by (cbn [length]; lia). specialize (h2 q).
  replace (len (c :: l)) with (len (c :: l) - 1 + 1) by lia. rewrite Z.pow_add_r by lia. change (256 ^ 1) with 256.
  set (m := 256 ^ (len (c :: l) - 1)) in *. clearbody m. lia.
Qed.

Section Load.
(** [A]: the bytes are ASCII. *)
Variable A : Prop.
Definition inv (s : rst) : Prop :=
  (A -> Forall (fun b => 0 <= b < 128) (rest s)) /\ 0 <= pos s /\ pos s + len (rest s) < 2 ^ 62 /\
  Forall (vin (length (rheap s))) (robjs s).
(** Started with fewer than [n] bytes left and [L] objects, [m] terminates, uses at
    least [k] bytes, keeps the invariant, and panics only if not [A]. *)
Definition ok {X} (L k n : nat) (G : X -> nat -> Prop) (m : R X) : Prop := forall s,
  inv s -> (L <= length (rheap s))%nat -> (length (rest s) < n)%nat ->
  match m s with
  | Ok (x, s') => inv s' /\ (length (rest s') + k <= length (rest s))%nat /\
      (length (rheap s) <= length (rheap s'))%nat /\ G x (length (rheap s'))
  | Panic => ~ A
  | Fuel => False
  | _ => True
  end.
Definition any {X} : X -> nat -> Prop := fun _ _ => True.
Definition valid : val -> nat -> Prop := fun v n => vin n v.

Lemma ok_ret {X} (G : X -> nat -> Prop) L n x : (forall L', (L <= L')%nat -> G x L') -> ok L 0 n G (ret x).
Proof. intros h s i hl hr. cbn. split; [auto|]. split; [lia|]. split; [lia|]. auto. Qed.
Lemma ok_bind {X Y} (G : X -> nat -> Prop) (G' : Y -> nat -> Prop) L k j n (m : R X) (f : X -> R Y) :
  ok L k n G m -> (forall x L', (L <= L')%nat -> G x L' -> ok L' j (n - k) G' (f x)) -> ok L (k + j) n G' (bind m f).
Proof.
  intros hm hf s i hl hr. specialize (hm s i hl hr). unfold bind. destruct (m s) as [[x s1]| | | |]; auto.
  destruct hm as (i1 & l1 & l2 & g). specialize (hf x _ (Nat.le_trans _ _ _ hl l2) g s1 i1 (Nat.le_refl _) ltac:(lia)).
  destruct (f x s1) as [[y s2]| | | |]; auto. destruct hf as (i2 & l3 & l4 & g2). split; [auto|]. split; [lia|]. split; [lia|auto].
Qed.
Lemma ok_weak {X} (G : X -> nat -> Prop) L L' k k' n n' (m : R X) : ok L k n G m -> (L <= L')%nat -> (k' <= k)%nat -> (n' <= n)%nat -> ok L' k' n' G m.
Proof.
  intros hm h1 h2 h3 s i hl hr. specialize (hm s i ltac:(lia) ltac:(lia)). destruct (m s) as [[x s1]| | | |]; auto.
  destruct hm as (a & b & c). split; [auto|]. split; [lia|auto].
Qed.
Lemma ok_post {X} (G G' : X -> nat -> Prop) L k n (m : R X) : ok L k n G m -> (forall x L', (L <= L')%nat -> G x L' -> G' x L') -> ok L k n G' m.
Proof.
  intros hm h s i hl hr. specialize (hm s i hl hr). destruct (m s) as [[x s1]| | | |]; auto.
  destruct hm as (a & b & c & d). split; [auto|]. split; [auto|]. split; [auto|]. apply h; [lia|auto].
Qed.
Lemma ok_raise {X} (G : X -> nat -> Prop) L k n : ok L k n G (fun _ => Raise).
Proof. intros s _ _ _. exact I. Qed.
Lemma ok_nm {X} (G : X -> nat -> Prop) L k n : ok L k n G (fun _ => NotModelled).
Proof. intros s _ _ _. exact I. Qed.

Lemma inv_tail s b r : inv s -> rest s = b :: r -> inv (mkr (pos s + 1) r (rsyms s) (robjs s) (rheap s)) /\ (A -> 0 <= b < 128).
Proof.
  intros (i1 & i2 & i3 & i4) e. rewrite e in *. cbn [length] in i3. split.
  - unfold inv. cbn. split; [intros a; specialize (i1 a); now inversion i1|]. split; [lia|]. split; [lia|auto].
  - intros a. specialize (i1 a). now inversion i1.
Qed.
Lemma ok_byte L n : ok L 1 n (fun b _ => A -> 0 <= b < 128) read_byte.
Proof.
  intros s i hl hr. unfold read_byte. destruct (rest s) as [|b r] eqn:e; [exact I|].
  destruct (inv_tail s b r i e) as [i1 i2]. split; [exact i1|]. cbn [rest rheap length]. split; [lia|]. split; [lia|auto].
Qed.
Lemma ok_bytes L n c : 0 <= c < 2 ^ 64 -> (A -> c < 2 ^ 62) ->
  ok L 0 n (fun l _ => len l = c /\ (A -> Forall (fun b => 0 <= b < 128) l)) (read_bytes c).
Proof.
  intros hc hA s i hl hr. destruct i as (i1 & i2 & i3 & i4). unfold read_bytes. cbv zeta.
  assert (E : (pos s + c) mod 2 ^ 64 = pos s + c \/ (pos s + c) mod 2 ^ 64 < pos s /\ 2 ^ 62 <= c).
  { change (2 ^ 64) with 18446744073709551616 in *. change (2 ^ 62) with 4611686018427387904 in *.
    destruct (Z.ltb_spec (pos s + c) 18446744073709551616).
    - left. apply Z.mod_small. lia.
    - right. assert ((pos s + c) mod 18446744073709551616 = pos s + c - 18446744073709551616).
      { symmetry. apply Z.mod_unique with 1; lia. } lia. }
  destruct (Z.ltb_spec (pos s + len (rest s)) ((pos s + c) mod 2 ^ 64)); [exact I|].
  destruct (Z.ltb_spec ((pos s + c) mod 2 ^ 64) (pos s)).
  - destruct E as [E|[E1 E2]]; [lia|]. intros a. specialize (hA a). lia.
  - destruct E as [E|[E1 E2]]; [|lia]. cbn [rest rheap]. rewrite skipn_length.
    split; [|split; [lia|split; [lia|]]].
    + split; [intros a; apply Forall_skipn, i1, a|]. cbn [pos rest rheap robjs]. rewrite skipn_length. split; [lia|]. split; [lia|auto].
    + split; [rewrite firstn_length; lia|]. intros a. specialize (i1 a). rewrite <- (firstn_skipn (Z.to_nat c)) in i1.
      now apply Forall_app in i1.
Qed.
Lemma to_i32_small x : 0 <= x < 2 ^ 31 -> to_i32 x = x. Proof. intros. apply to_i32_id. lia. Qed.
Lemma ok_fixnum L n : ok L 1 n (fun x _ => A -> 0 <= x < 2 ^ 31) read_fixnum.
Proof.
  unfold read_fixnum. apply (ok_bind _ _ L 1 0 n _ _ (ok_byte L n)). intros b L' hL hb. cbv zeta.
  set (c := if b <? 128 then b else b - 256).
  assert (hc : A -> c = b) by (intros a; specialize (hb a); unfold c; destruct (Z.ltb_spec b 128); lia).
  destruct (Z.eqb_spec c 0); [apply ok_ret; intros; lia|].
  destruct (Z.ltb_spec 0 c).
  - destruct (Z.leb_spec c 4).
    + apply (ok_bind _ _ L' 0 0 _ _ _ (ok_bytes L' _ c ltac:(lia) ltac:(lia))). intros l L2 h2 [hl ha]. apply ok_ret.
      intros _ _ a. specialize (ha a). apply of_le_ascii in ha as [o1 o2]. rewrite hl in o2. specialize (o2 ltac:(lia)).
      assert (256 ^ (c - 1) <= 256 ^ 3) by (apply Z.pow_le_mono_r; lia). change (256 ^ 3) with 16777216 in *.
      rewrite to_i32_small; change (2 ^ 31) with 2147483648; lia.
    + apply ok_ret. intros _ _ a. rewrite hc by auto. specialize (hb a). lia.
  - assert (~ A) by (intros a; specialize (hb a); specialize (hc a); lia).
    destruct (Z.leb_spec (-4) c).
    + apply (ok_bind _ _ L' 0 0 _ _ _ (ok_bytes L' _ (- c) ltac:(lia) ltac:(lia))). intros l L2 h2 [hl ha]. apply ok_ret. tauto.
    + apply ok_ret. tauto.
Qed.

Lemma usize_range x : 0 <= to_usize x < 2 ^ 64. Proof. apply Z.mod_pos_bound. lia. Qed.
Lemma usize_A x : (A -> 0 <= x < 2 ^ 31) -> A -> to_usize x < 2 ^ 31.
Proof. intros h a. specialize (h a). rewrite usize_id; change (2 ^ 31) with 2147483648 in *; change (2 ^ 63) with 9223372036854775808; lia. Qed.
Lemma ok_blob L n : ok L 1 n any read_blob.
Proof.
  unfold read_blob. apply (ok_bind _ _ L 1 0 n _ _ (ok_fixnum L n)). intros x L' hL hx.
  eapply ok_post; [apply ok_bytes; [apply usize_range|]|intros; exact I].
  intros a. pose proof (usize_A x hx a). lia.
Qed.
Lemma ok_push_sym L n x : ok L 0 n any (push_rsym x).
Proof. intros s i hl hr. cbn. repeat split; try lia; apply i. Qed.
Lemma ok_push_obj L n v : vin L v -> ok L 0 n any (push_robj v).
Proof.
  intros hv s (i1 & i2 & i3 & i4) hl hr. cbn. repeat split; auto; try lia. cbn. apply Forall_app. split; auto. constructor; auto.
  eapply vin_le; eauto.
Qed.
Lemma ok_alloc L n o : ok L 0 n lt (alloc o).
Proof.
  intros s (i1 & i2 & i3 & i4) hl hr. cbn. rewrite app_length. cbn. repeat split; auto; try lia. cbn.
  rewrite app_length. eapply vins_le; [|exact i4]. lia.
Qed.
Lemma ok_update L n a f : (a < L)%nat -> ok L 0 n any (update a f).
Proof.
  intros ha s (i1 & i2 & i3 & i4) hl hr. unfold update. destruct (nth_error (rheap s) a) as [o|] eqn:e.
  - cbn. rewrite set_nth_len. repeat split; auto; try lia. cbn. now rewrite set_nth_len.
  - apply nth_error_None in e. lia.
Qed.
Lemma ok_get_heap L n : ok L 0 n any get_heap.
Proof. intros s i hl hr. cbn. repeat split; try lia; apply i. Qed.
Lemma ok_count L n : ok L 0 n any count_rsyms.
Proof. intros s i hl hr. cbn. repeat split; try lia; apply i. Qed.
Lemma ok_put_rsym L n i x : ok L 0 n any (put_rsym i x).
Proof. intros s j hl hr. cbn. repeat split; try lia; apply j. Qed.
Lemma ok_string_bytes L n v : ok L 0 n any (string_bytes v).
Proof. intros s i hl hr. cbn. repeat split; try lia; apply i. Qed.
Lemma ok_is_hash L n v : ok L 0 n any (is_hash v).
Proof. intros s i hl hr. cbn. repeat split; try lia; apply i. Qed.
Lemma ok_peek {X} (G : X -> nat -> Prop) L k n (f : Z -> R X) : (forall b, ok L k n G (f b)) -> ok L k n G (peek f).
Proof. intros h s i hl hr. unfold peek. destruct (rest s) eqn:e; [exact I|]. rewrite <- e in *. now apply h. Qed.
(** In the shape the readers have. *)
Lemma ok_seq {X Y} (G : X -> nat -> Prop) (G' : Y -> nat -> Prop) L k n (m : R X) (f : X -> R Y) :
  ok L 0 n G m -> (forall x L', (L <= L')%nat -> G x L' -> ok L' k n G' (f x)) -> ok L k n G' (bind m f).
Proof. intros hm hf. apply (ok_bind G G' L 0 k); auto. intros x L' h1 h2. rewrite Nat.sub_0_r. auto. Qed.
Lemma ok_seq1 {X Y} (G : X -> nat -> Prop) (G' : Y -> nat -> Prop) L n (m : R X) (f : X -> R Y) :
  ok L 1 n G m -> (forall x L', (L <= L')%nat -> G x L' -> ok L' 0 n G' (f x)) -> ok L 1 n G' (bind m f).
Proof. intros hm hf. apply (ok_bind G G' L 1 0); auto. intros x L' h1 h2. eapply ok_weak; [apply hf; eauto|..]; lia. Qed.
Lemma ok_drop {X} (G : X -> nat -> Prop) L n (m : R X) : ok L 1 n G m -> ok L 0 n G m.
Proof. intros h. eapply ok_weak; [exact h|..]; lia. Qed.
Lemma ok_skip {X} (G : X -> nat -> Prop) L n (m : R X) : (forall L', (L <= L')%nat -> ok L' 0 n G m) -> ok L 1 n G (skip m).
Proof. intros h. eapply ok_seq1; [apply ok_byte|]. intros. auto. Qed.
Lemma ok_new_symbol L n : ok L 1 n any read_new_symbol.
Proof.
  unfold read_new_symbol. eapply ok_seq1; [apply ok_blob|]. intros b L' hl _. cbv zeta.
  eapply ok_seq; [apply ok_push_sym|]. intros. apply ok_ret. exact (fun _ _ => I).
Qed.
Lemma ok_sym_ref L n : ok L 1 n any read_sym_ref.
Proof.
  unfold read_sym_ref. eapply ok_seq1; [apply ok_fixnum|]. intros x L' hl _ s i hl' hr.
  destruct (_ <? _); [|exact I]. destruct (nth_error _ _); [|exact I]. repeat split; auto; try lia; apply i.
Qed.
Lemma ok_times_fuel {X} (G : X -> nat -> Prop) n (f : X -> R X) : (forall acc L, G acc L -> ok L 1 n G (f acc)) ->
  (forall acc L L', G acc L -> (L <= L')%nat -> G acc L') ->
  forall fuel c acc L, G acc L -> ok L 0 (Nat.min n fuel) G (times_fuel fuel c acc f).
Proof.
  intros hf hm. induction fuel as [|fuel IH]; intros c acc L g.
  - intros s i hl hr. lia.
  - cbn [times_fuel]. destruct (c <=? 0); [apply ok_ret; intros; eapply hm; eauto|].
    intros s i hl hr. specialize (hf acc L g s i hl ltac:(lia)). unfold bind. destruct (f acc s) as [[x s1]| | | |]; auto.
    destruct hf as (i1 & l1 & l2 & g1). specialize (IH (c - 1) x _ g1 s1 i1 (Nat.le_refl _) ltac:(lia)).
    destruct (times_fuel fuel (c - 1) x f s1) as [[y s2]| | | |]; auto. destruct IH as (a & b & d & e).
    split; [auto|]. split; [lia|]. split; [lia|auto].
Qed.
Lemma ok_times {X} (G : X -> nat -> Prop) L n c acc (f : X -> R X) : (forall acc L', (L <= L')%nat -> G acc L' -> ok L' 1 n G (f acc)) ->
  (forall acc L L', G acc L -> (L <= L')%nat -> G acc L') -> G acc L -> ok L 0 n G (times c acc f).
Proof.
  intros hf hm g s i hl hr. unfold times.
  pose proof (ok_times_fuel (fun x m => G x m /\ (L <= m)%nat) n f) as T.
  assert (T1 : forall acc L0, G acc L0 /\ (L <= L0)%nat -> ok L0 1 n (fun x m => G x m /\ (L <= m)%nat) (f acc)).
  { intros acc0 L0 [g0 l0]. eapply ok_post; [apply hf; auto|]. cbn. intros. split; [auto|lia]. }
  assert (T2 : forall acc L0 L', G acc L0 /\ (L <= L0)%nat -> (L0 <= L')%nat -> G acc L' /\ (L <= L')%nat).
  { intros acc0 L0 L1 [g0 l0] l1. split; [eapply hm; eauto|lia]. }
  specialize (T T1 T2 (S (length (rest s))) c acc L (conj g (Nat.le_refl L)) s i hl ltac:(lia)).
  destruct (times_fuel _ _ _ _ s) as [[x s1]| | | |]; auto. tauto.
Qed.

Section Inner.
Variables (prs : list Z -> option Z) (plain sub : list Z -> bool) (deep : heap -> nat -> nat -> bool).
Variables (rd : R val) (n : nat).
Hypothesis hrd : forall L, ok L 1 n valid rd.

Lemma ok_symbol L : ok L 1 n any (read_symbol rd).
Proof.
  unfold read_symbol. apply ok_peek. intros t.
  destruct (t =? 58); [apply ok_skip; intros; apply ok_drop, ok_new_symbol|].
  destruct (t =? 59); [apply ok_skip; intros; apply ok_drop, ok_sym_ref|].
  destruct (t =? 73); [|apply ok_raise]. eapply ok_seq1; [apply hrd|]. intros v L' _ _.
  destruct v; try apply ok_raise. apply ok_ret. exact (fun _ _ => I).
Qed.
Lemma ok_named_enc L v e : ok L 0 n any (named_enc v e).
Proof. unfold named_enc. eapply ok_seq; [apply ok_string_bytes|]. intros. apply ok_ret. exact (fun _ _ => I). Qed.
Definition acc_ok (x : encoding * list (sym * val)) (m : nat) : Prop := Forall (fun p => vin m (snd p)) (snd x).
Definition iv_ok (x : list (sym * val)) (m : nat) : Prop := Forall (fun p => vin m (snd p)) x.
Lemma iv_ok_le x m m' : iv_ok x m -> (m <= m')%nat -> iv_ok x m'.
Proof. intros h l. unfold iv_ok in *. eapply Forall_impl; [|exact h]. intros p. now apply vin_le. Qed.
Lemma ok_enc_ivar acc L : acc_ok acc L -> ok L 1 n acc_ok (enc_ivar rd acc).
Proof.
  intros ha. unfold enc_ivar. eapply ok_seq1; [apply ok_symbol|]. intros s L' hl _.
  assert (K : forall L2, (L' <= L2)%nat -> forall e, ok L2 0 n acc_ok (ret (e, snd acc))).
  { intros L2 h2 e. apply ok_ret. intros L3 h3. apply (iv_ok_le _ L); auto. lia. }
  assert (K2 : forall L2, (L' <= L2)%nat -> ok L2 1 n acc_ok (bind rd (fun v => bind (named_enc v (fst acc)) (fun e => ret (e, snd acc))))).
  { intros L2 h2. eapply ok_seq1; [apply hrd|]. intros v L3 h3 _. eapply ok_seq; [apply ok_named_enc|]. intros. apply K. lia. }
  destruct (bytes_dec _ (bs "E")).
  - apply ok_peek. intros b. destruct (b =? 84); [apply ok_drop, ok_skip; intros; now apply K|].
    destruct (b =? 70); [apply ok_drop, ok_skip; intros; now apply K|]. apply ok_drop, K2. lia.
  - destruct (bytes_dec _ (bs "encoding")); [apply ok_drop, K2; lia|].
    apply ok_drop. eapply ok_seq1; [apply hrd|]. intros v L3 h3 hv. apply ok_ret. intros L4 h4. unfold acc_ok. cbn [snd].
    apply Forall_app. split; [apply (iv_ok_le _ L); auto; lia|]. constructor; auto. cbn [snd]. eapply vin_le; [|exact hv]. lia.
Qed.
Lemma ok_enc_ivars L : ok L 1 n acc_ok (read_enc_ivars rd).
Proof.
  unfold read_enc_ivars. eapply ok_seq1; [apply ok_fixnum|]. intros c L' hl _. apply ok_times.
  - intros. now apply ok_enc_ivar.
  - intros acc L1 L2 h1 h2. eapply iv_ok_le; eauto.
  - constructor.
Qed.
Lemma ok_set_ivar L x s v : vin L x -> ok L 0 n any (set_ivar x s v).
Proof. destruct x; cbn [set_ivar vin]; intros h; try apply ok_nm. now apply ok_update. Qed.
Lemma ok_set_ivars L x iv : vin L x -> ok L 0 n any (set_ivars x iv).
Proof.
  revert L. induction iv as [|[s v] iv IH]; intros L h; cbn [set_ivars]; [apply ok_ret; exact (fun _ _ => I)|].
  eapply ok_seq; [now apply ok_set_ivar|]. intros _ L' hl _. apply IH. now apply (vin_le L).
Qed.
Lemma ok_new_int L z : ok L 0 n valid (new_int z).
Proof.
  unfold new_int. destruct (_ && _); [apply ok_ret; intros; exact I|]. eapply ok_seq; [apply ok_alloc|].
  intros a L' hl ha. apply ok_ret. intros L2 h2. cbn. lia.
Qed.
Lemma ok_new_float L z : ok L 0 n valid (new_float z).
Proof.
  unfold new_float. destruct (ValueModel.enc_flonum z); [apply ok_ret; intros; exact I|]. eapply ok_seq; [apply ok_alloc|].
  intros a L' hl ha. apply ok_ret. intros L2 h2. cbn. lia.
Qed.
Lemma ok_pushed L v : vin L v -> ok L 0 n valid (bind (push_robj v) (fun _ => ret v)).
Proof. intros h. eapply ok_seq; [now apply ok_push_obj|]. intros. apply ok_ret. intros. eapply vin_le; [|exact h]. lia. Qed.
Lemma ok_bignum L : ok L 0 n valid read_bignum.
Proof.
  unfold read_bignum. apply ok_drop. eapply ok_seq1; [apply ok_byte|]. intros sg L1 h1 _. apply ok_drop.
  eapply ok_seq1; [apply ok_fixnum|]. intros c L2 h2 hc.
  eapply ok_seq; [apply ok_bytes|].
  - apply Z.mod_pos_bound. lia.
  - intros a. pose proof (usize_A c hc a) as u. pose proof (usize_range c). change (2 ^ 31) with 2147483648 in u.
    rewrite Z.mod_small; change (2 ^ 64) with 18446744073709551616; change (2 ^ 62) with 4611686018427387904; lia.
  - intros l L3 h3 _. eapply ok_seq; [apply ok_new_int|]. intros v L4 h4 hv. now apply ok_pushed.
Qed.
Lemma ok_float L : ok L 0 n valid (read_float prs).
Proof.
  unfold read_float. apply ok_drop. eapply ok_seq1; [apply ok_blob|]. intros l L1 h1 _. cbv zeta.
  destruct (utf8_ok _); [|apply ok_raise]. destruct (text_float prs _); [|apply ok_raise].
  eapply ok_seq; [apply ok_new_float|]. intros. now apply ok_pushed.
Qed.
Lemma ok_new_obj L o : ok L 0 n valid (new_obj o).
Proof. unfold new_obj. eapply ok_seq; [apply ok_alloc|]. intros a L' hl ha. now apply ok_pushed. Qed.
Lemma ok_raw_string L : ok L 0 n valid read_raw_string.
Proof. unfold read_raw_string. apply ok_drop. eapply ok_seq1; [apply ok_blob|]. intros. apply ok_new_obj. Qed.
Lemma ok_array L : ok L 0 n valid (read_array rd).
Proof.
  unfold read_array. apply ok_drop. eapply ok_seq1; [apply ok_fixnum|]. intros c L1 h1 hc.
  destruct (Z.leb_spec (2 ^ 60) (to_usize c)) as [q|q].
  - intros s i hl hr a. pose proof (usize_A c hc a) as u. change (2 ^ 31) with 2147483648 in u. change (2 ^ 60) with 1152921504606846976 in q. lia.
  - eapply ok_seq; [apply ok_alloc|]. intros a L2 h2 ha. eapply ok_seq; [now apply ok_push_obj|]. intros _ L3 h3 _.
    eapply ok_seq; [apply (ok_times any)|].
    + intros _ L4 h4 _. eapply ok_seq1; [apply hrd|]. intros v L5 h5 _. apply ok_update. lia.
    + exact (fun _ _ _ _ _ => I).
    + exact I.
    + intros _ L4 h4 _. apply ok_ret. intros L5 h5. cbn. lia.
Qed.
Lemma ok_hash L b : ok L 0 n valid (read_hash deep rd b).
Proof.
  unfold read_hash. apply ok_drop. eapply ok_seq1; [apply ok_fixnum|]. intros c L1 h1 hc.
  eapply ok_seq; [apply ok_alloc|]. intros a L2 h2 ha. eapply ok_seq; [now apply ok_push_obj|]. intros _ L3 h3 _.
  eapply ok_seq; [apply (ok_times any)|].
  - intros _ L4 h4 _. eapply ok_seq1; [apply hrd|]. intros k L5 h5 _. apply ok_drop. eapply ok_seq1; [apply hrd|]. intros v L6 h6 _.
    eapply ok_seq; [apply ok_get_heap|]. intros H L7 h7 _. apply ok_update. lia.
  - exact (fun _ _ _ _ _ => I).
  - exact I.
  - intros _ L4 h4 _. destruct b; [|apply ok_ret; intros; cbn; lia]. apply ok_drop. eapply ok_seq1; [apply hrd|]. intros d L5 h5 _.
    eapply ok_seq; [apply ok_update; lia|]. intros _ L6 h6 _. apply ok_ret. intros; cbn; lia.
Qed.
Lemma ok_user_object L : ok L 0 n valid (read_user_object plain rd).
Proof.
  unfold read_user_object. apply ok_drop. eapply ok_seq1; [apply ok_symbol|]. intros s L0 h0 _. apply ok_drop.
  eapply ok_seq1; [apply ok_fixnum|]. intros c L1 h1 hc. destruct (plain _); [|apply ok_nm].
  eapply ok_seq; [apply ok_alloc|]. intros a L2 h2 ha. eapply ok_seq; [now apply ok_push_obj|]. intros _ L3 h3 _.
  eapply ok_seq; [apply (ok_times any)|].
  - intros acc L4 h4 _. eapply ok_seq1; [apply ok_symbol|]. intros x L5 h5 _. apply ok_drop. eapply ok_seq1; [apply hrd|].
    intros. apply ok_ret. exact (fun _ _ => I).
  - exact (fun _ _ _ _ _ => I).
  - exact I.
  - intros iv L4 h4 _. eapply ok_seq; [apply ok_set_ivars; cbn; lia|]. intros _ L5 h5 _. apply ok_ret. intros; cbn; lia.
Qed.
Lemma ok_user_class L : ok L 0 n valid (read_user_class sub rd).
Proof.
  unfold read_user_class. apply ok_drop. eapply ok_seq1; [apply ok_symbol|]. intros s L0 h0 _. apply ok_drop.
  eapply ok_seq1; [apply hrd|]. intros v L1 h1 hv. cbv zeta. eapply ok_seq; [apply ok_is_hash|]. intros b L2 h2 _.
  destruct v; try apply ok_nm. cbn in hv. destruct (bytes_dec _ _).
  - destruct b; [|apply ok_nm]. eapply ok_seq; [apply ok_update; lia|]. intros. apply ok_ret. intros; cbn; lia.
  - destruct (has_colons _); [apply ok_raise|]. destruct (sub _); [|apply ok_raise].
    eapply ok_seq; [apply ok_update; lia|]. intros. apply ok_ret. intros; cbn; lia.
Qed.
Lemma ok_regexp L : ok L 0 n valid read_regexp.
Proof.
  unfold read_regexp. apply ok_drop. eapply ok_seq1; [apply ok_blob|]. intros. apply ok_drop. eapply ok_seq1; [apply ok_byte|]. intros.
  eapply ok_seq; [apply ok_alloc|]. intros a L2 h2 ha. apply ok_ret. intros; cbn; lia.
Qed.
Lemma ok_ivar_wrapped L : ok L 0 n valid (read_ivar_wrapped rd).
Proof.
  unfold read_ivar_wrapped. apply ok_peek. intros t. destruct (t =? 34).
  - apply ok_drop, ok_skip. intros L0 h0. apply ok_drop. eapply ok_seq1; [apply ok_blob|]. intros b L1 h1 _. apply ok_drop.
    eapply ok_seq1; [apply ok_enc_ivars|]. intros ei L2 h2 _. eapply ok_seq; [apply ok_new_obj|]. intros v L3 h3 hv.
    eapply ok_seq; [now apply ok_set_ivars|]. intros _ L4 h4 _. apply ok_ret. intros L5 h5. eapply vin_le; [|exact hv]. lia.
  - destruct (t =? 58).
    + apply ok_drop, ok_skip. intros L0 h0. apply ok_drop. eapply ok_seq1; [apply ok_blob|]. intros b L1 h1 _.
      eapply ok_seq; [apply ok_count|]. intros i L2 h2 _. eapply ok_seq; [apply ok_push_sym|]. intros _ L3 h3 _. apply ok_drop.
      eapply ok_seq1; [apply ok_enc_ivars|]. intros ei L4 h4 _. cbv zeta. eapply ok_seq; [apply ok_put_rsym|]. intros _ L5 h5 _.
      apply ok_ret. intros; exact I.
    + destruct (t =? 117); [apply ok_nm|]. apply ok_drop. eapply ok_seq1; [apply hrd|]. intros v L1 h1 hv. apply ok_drop.
      eapply ok_seq1; [apply ok_fixnum|]. intros c L2 h2 _. eapply ok_seq; [apply (ok_times any)|].
      * intros u L3 h3 _. unfold any_ivar. eapply ok_seq1; [apply ok_symbol|]. intros s L4 h4 _. apply ok_drop. eapply ok_seq1; [apply hrd|].
        intros w L5 h5 _. destruct (bytes_dec _ _); [apply ok_ret; exact (fun _ _ => I)|].
        destruct (bytes_dec _ _); [apply ok_ret; exact (fun _ _ => I)|]. apply ok_set_ivar. eapply vin_le; [|exact hv]. lia.
      * exact (fun _ _ _ _ _ => I).
      * exact I.
      * intros _ L3 h3 _. apply ok_ret. intros L4 h4. eapply vin_le; [|exact hv]. lia.
Qed.
Lemma ok_step L : ok L 1 (S n) valid (read_step prs plain sub deep rd).
Proof.
  unfold read_step. apply (ok_bind _ _ L 1 0 _ _ _ (ok_byte L (S n))). intros t L' hl _. replace (S n - 1)%nat with n by lia.
  repeat match goal with |- ok _ _ _ _ (if _ =? _ then _ else _) => destruct (_ =? _) end;
    try (apply ok_ret; intros; exact I); auto using ok_bignum, ok_float, ok_raw_string, ok_ivar_wrapped, ok_array, ok_hash,
      ok_user_object, ok_user_class, ok_regexp.
  - apply ok_drop. eapply ok_seq1; [apply ok_fixnum|]. intros. apply ok_ret. intros; exact I.
  - apply ok_drop. eapply ok_seq1; [apply ok_new_symbol|]. intros. apply ok_ret. intros; exact I.
  - apply ok_drop. eapply ok_seq1; [apply ok_sym_ref|]. intros. apply ok_ret. intros; exact I.
  - apply ok_drop. eapply ok_seq1; [apply ok_fixnum|]. intros x L2 h2 _ s i h3 hr. destruct (_ <? _); [|exact I].
    destruct (nth_error (robjs s) _) as [v|] eqn:e; [|exact I]. split; [auto|]. split; [lia|]. split; [lia|].
    destruct i as (_ & _ & _ & i). rewrite Forall_forall in i. apply i. eapply nth_error_In; eauto.
  - destruct (existsb _ _); [apply ok_nm | apply ok_raise].
Qed.
End Inner.

Lemma ok_value prs plain sub deep n : forall L, ok L 1 n valid (read_value prs plain sub deep n).
Proof.
  induction n as [|n IH]; intros L; [intros s _ _ hr; lia|]. cbn [read_value]. now apply ok_step.
Qed.
End Load.

Lemma load_ok (A : Prop) prs plain sub deep d : len d < 2 ^ 62 -> (A -> Forall (fun b => 0 <= b < 128) d) ->
  match load prs plain sub deep d with
  | Ok (v, h) => vin (length h) v
  | Panic => ~ A
  | Fuel => False
  | _ => True
  end.
Proof.
  intros hl ha. unfold load. destruct d as [|b0 [|b1 d]]; try exact I. destruct (_ && _); [|exact I].
  assert (I0 : inv A (mkr 0 d [] [] [])).
  { split; [intros a; specialize (ha a); inversion ha as [|? ? _ h]; now inversion h|]. cbn [pos rest robjs rheap].
    cbn [length] in hl. split; [lia|]. split; [lia|constructor]. }
  pose proof (ok_value A prs plain sub deep (S (length d)) 0 _ I0 ltac:(cbn; lia) ltac:(cbn; lia)) as V.
  destruct (read_value _ _ _ _ _ _) as [[v s]| | | |]; auto. apply V.
Qed.

Lemma load_stops prs plain sub deep d : Z.of_nat (length d) < 2 ^ 62 ->
  match load prs plain sub deep d with Fuel => False | Ok (v, h) => vin (length h) v | _ => True end.
Proof.
  intros h. pose proof (load_ok False prs plain sub deep d h ltac:(tauto)) as k.
  destruct (load prs plain sub deep d) as [[v hp]| | | |]; auto.
Qed.
Lemma load_no_panic prs plain sub deep d : Z.of_nat (length d) < 2 ^ 62 ->
  Forall (fun b => 0 <= b < 128) d -> load prs plain sub deep d <> Panic.
Proof.
  intros h a e. pose proof (load_ok True prs plain sub deep d h ltac:(auto)) as k. rewrite e in k. tauto.
Qed.
