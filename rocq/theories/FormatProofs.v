(** Digits, complements, integers. *)
From Coq Require Import List Bool ZArith Lia Psatz.
From Verif Require Import FormatModel FormatSpec.
Import ListNotations.
Open Scope Z_scope.

Definition is_digits (base : Z) (l : list Z) : Prop := Forall (fun d => 0 <= d < base) l.
Lemma len_nil : forall A, @len A [] = 0. Proof. reflexivity. Qed.
Lemma len_cons : forall A (x : A) l, len (x :: l) = 1 + len l. Proof. intros. unfold len. cbn [length]. lia. Qed.
Lemma len_app : forall A (a b : list A), len (a ++ b) = len a + len b. Proof. intros. unfold len. rewrite app_length. lia. Qed.
Lemma len_nonneg : forall A (a : list A), 0 <= len a. Proof. intros. unfold len. lia. Qed.
Lemma len_pad : forall c n, len (pad c n) = Z.max 0 n. Proof. intros. unfold len, pad. rewrite repeat_length. lia. Qed.
Lemma len_map : forall A B (f : A -> B) l, len (map f l) = len l. Proof. intros. unfold len. rewrite map_length. reflexivity. Qed.
Lemma pad_neg : forall c n, n <= 0 -> pad c n = []. Proof. intros c n H. unfold pad. replace (Z.to_nat n) with O by lia. reflexivity. Qed.

Lemma worth_gen : forall base l n, fold_left (fun n d => n * base + d) l n = n * base ^ len l + worth base l.
Proof.
  intros base l. unfold worth. induction l as [|d l IH]; intros n; [cbn; lia|]. cbn [fold_left]. rewrite (IH (n * base + d)), (IH (0 * base + d)), len_cons.
  replace (1 + len l) with (len l + 1) by lia. rewrite Z.pow_add_r by (try lia; apply len_nonneg). rewrite Z.pow_1_r. generalize (base ^ len l). intros. nia.
Qed.
Lemma worth_cons : forall base d l, worth base (d :: l) = d * base ^ len l + worth base l.
Proof. intros. unfold worth at 1. cbn [fold_left]. rewrite worth_gen. f_equal. Qed.
Lemma worth_snoc : forall base l d, worth base (l ++ [d]) = worth base l * base + d.
Proof. intros. unfold worth. rewrite fold_left_app. reflexivity. Qed.
Lemma worth_range : forall base l, 2 <= base -> is_digits base l -> 0 <= worth base l < base ^ len l.
Proof.
  intros base l B H. induction H as [|d l D H IH]; [cbn; lia|]. rewrite worth_cons, len_cons. rewrite Z.add_comm, Z.pow_add_r by (try lia; apply len_nonneg).
  rewrite Z.pow_1_r. revert IH. generalize (base ^ len l) (worth base l). intros. nia.
Qed.
Lemma loop_ok : forall base, 2 <= base -> forall fuel n acc, 0 <= n < 2 ^ Z.of_nat (S fuel) ->
  exists l, digs_loop (S fuel) base n acc = l ++ acc /\ worth base l = n /\ is_digits base l /\ l <> [] /\ (0 < n -> hd 0 l <> 0) /\ (n = 0 -> l = [0]).
Proof.
  intros base B. induction fuel as [|fuel IH]; intros n acc Hn.
  - change (2 ^ Z.of_nat 1) with 2 in Hn. cbn [digs_loop]. rewrite (Z.div_small n base) by lia. cbn [Z.eqb]. rewrite Z.mod_small by lia.
    exists [n]. split; [reflexivity|]. split; [reflexivity|]. split; [constructor; [lia|constructor]|]. split; [discriminate|]. cbn. split; [lia|intros ->; reflexivity].
  - change (digs_loop (S (S fuel)) base n acc) with (if n / base =? 0 then n mod base :: acc else digs_loop (S fuel) base (n / base) (n mod base :: acc)).
    assert (0 <= n mod base < base) as M by (apply Z.mod_pos_bound; lia). pose proof (Z.div_mod n base ltac:(lia)) as DM.
    assert (0 <= n / base) as P by (apply Z.div_pos; lia).
    destruct (Z.eqb_spec (n / base) 0) as [E|E].
    + exists [n mod base]. assert (n mod base = n) as Q by nia. split; [reflexivity|]. split; [unfold worth; cbn; lia|]. split; [constructor; [exact M|constructor]|].
      split; [discriminate|]. cbn. split; [lia|intros ->; reflexivity].
    + assert (n / base < 2 ^ Z.of_nat (S fuel)) as U.
      { apply Z.div_lt_upper_bound; [lia|]. rewrite (Nat2Z.inj_succ (S fuel)), Z.pow_succ_r in Hn by lia. revert Hn. generalize (2 ^ Z.of_nat (S fuel)). intros. nia. }
      destruct (IH (n / base) (n mod base :: acc) (conj P U)) as (l & L1 & L2 & L3 & L4 & L5 & L6). rewrite L1.
      exists (l ++ [n mod base]). rewrite <- app_assoc. split; [reflexivity|]. rewrite worth_snoc, L2. split; [lia|].
      split; [apply Forall_app; split; [exact L3|constructor; [exact M|constructor]]|]. split; [destruct l; discriminate|]. split.
      * intros _. destruct l as [|x l]; [contradiction L4; reflexivity|]. cbn. apply L5. lia.
      * intros ->. rewrite Z.div_0_l in E by lia. contradiction E. reflexivity.
Qed.
Lemma digs_ok : forall base n, 2 <= base -> 0 <= n ->
  worth base (digs base n) = n /\ is_digits base (digs base n) /\ digs base n <> [] /\ (0 < n -> hd 0 (digs base n) <> 0) /\ (n = 0 -> digs base n = [0]).
Proof.
  intros base n B N. unfold digs. destruct (loop_ok base B (Z.to_nat (Z.log2 n)) n []) as (l & L1 & L).
  - split; [exact N|]. rewrite Nat2Z.inj_succ, Z2Nat.id by apply Z.log2_nonneg. destruct (Z.eq_dec n 0) as [->|]; [reflexivity|]. apply Z.log2_spec. lia.
  - rewrite L1, app_nil_r. exact L.
Qed.
(** Only one list of digits stands for a number. *)
Lemma unique_len : forall base a b, 2 <= base -> is_digits base a -> is_digits base b -> length a = length b -> worth base a = worth base b -> a = b.
Proof.
  intros base a. induction a as [|x a IH]; intros b B A Hb L W; [destruct b; [reflexivity|discriminate]|]. destruct b as [|y b]; [discriminate|].
  apply Forall_cons_iff in A. destruct A as [X A]. apply Forall_cons_iff in Hb. destruct Hb as [Y Hb]. injection L as L.
  rewrite !worth_cons in W. assert (len a = len b) as E by (unfold len; rewrite L; reflexivity). rewrite E in W.
  pose proof (worth_range base a B A) as RA. pose proof (worth_range base b B Hb) as RB. rewrite E in RA.
  assert (x = y) as Exy.
  { revert W RA RB. generalize (base ^ len b) (worth base a) (worth base b). clear. intros P u v W RA RB.
    destruct (Z.lt_trichotomy x y) as [Q|[Q|Q]]; [nia|exact Q|nia]. }
  subst y. assert (worth base a = worth base b) as W2 by lia.
  f_equal. exact (IH b B A Hb L W2).
Qed.
Lemma worth_low : forall base l, 2 <= base -> is_digits base l -> l <> [] -> hd 0 l <> 0 -> base ^ (len l - 1) <= worth base l.
Proof.
  intros base l B D N H. destruct l as [|d l]; [contradiction|]. apply Forall_cons_iff in D. destruct D as [X D]. cbn [hd] in H. rewrite worth_cons, len_cons.
  replace (1 + len l - 1) with (len l) by lia. pose proof (worth_range base l B D). assert (0 <= base ^ len l) by (apply Z.pow_nonneg; lia). nia.
Qed.
Lemma digs_unique : forall base l n, 2 <= base -> is_digits base l -> l <> [] -> hd 0 l <> 0 -> worth base l = n -> digs base n = l.
Proof.
  intros base l n B D N H W. pose proof (worth_low base l B D N H) as Lo. pose proof (worth_range base l B D) as Up.
  assert (0 < base ^ (len l - 1)) as P. { apply Z.pow_pos_nonneg; [lia|]. destruct l; [contradiction|]. rewrite len_cons. pose proof (len_nonneg _ l). lia. }
  destruct (digs_ok base n B ltac:(lia)) as (E1 & E2 & E3 & E4 & _). specialize (E4 ltac:(lia)).
  pose proof (worth_low base _ B E2 E3 E4) as Lo2. pose proof (worth_range base _ B E2) as Up2. rewrite E1 in *. subst n.
  apply (unique_len base); [exact B|exact E2|exact D| |exact E1].
  assert (len (digs base (worth base l)) = len l) as Q.
  { assert (1 <= len l /\ 1 <= len (digs base (worth base l))) as [Q1 Q2].
    { split; [destruct l|destruct (digs base (worth base l))]; try contradiction; rewrite len_cons; match goal with |- context [len ?x] => pose proof (len_nonneg _ x) end; lia. }
    assert (len l - 1 < len (digs base (worth base l))) by (apply (Z.pow_lt_mono_r_iff base); lia).
    assert (len (digs base (worth base l)) - 1 < len l) by (apply (Z.pow_lt_mono_r_iff base); lia). lia. }
  unfold len in Q. lia.
Qed.
(** The complement. *)
Lemma plus_one_ok : forall base l, 2 <= base -> is_digits base l ->
  worth base (fst (plus_one base l)) + snd (plus_one base l) * base ^ len l = worth base l + 1
  /\ is_digits base (fst (plus_one base l)) /\ length (fst (plus_one base l)) = length l /\ 0 <= snd (plus_one base l) <= 1.
Proof.
  intros base l B H. induction H as [|d l D H IH]; [cbn; repeat split; try lia; constructor|]. cbn [plus_one]. destruct (plus_one base l) as [r c]. cbn [fst snd] in *.
  destruct IH as (W & R & L & C). assert (len r = len l) as E by (unfold len; rewrite L; reflexivity).
  pose proof (Z.div_mod (d + c) base ltac:(lia)) as DM. pose proof (Z.mod_pos_bound (d + c) base ltac:(lia)) as MB.
  split; [|split; [constructor; assumption|split; [cbn; lia|]]].
  - rewrite !worth_cons, len_cons, E. rewrite Z.add_comm with (n := 1), Z.pow_add_r, Z.pow_1_r by (try lia; apply len_nonneg).
    revert W DM. generalize (base ^ len l) (worth base l) (worth base r) ((d + c) / base) ((d + c) mod base). intros. nia.
  - split; [apply Z.div_pos; lia|]. assert ((d + c) / base < 2) by (apply Z.div_lt_upper_bound; lia). lia.
Qed.
Lemma flip_ok : forall base l, 2 <= base -> is_digits base l ->
  worth base (map (fun d => base - 1 - d) l) = base ^ len l - 1 - worth base l /\ is_digits base (map (fun d => base - 1 - d) l).
Proof.
  intros base l B H. induction H as [|d l D H [IH1 IH2]]; [split; [reflexivity|constructor]|]. cbn [map]. rewrite !worth_cons, len_map, IH1, len_cons.
  split; [|constructor; [lia|exact IH2]]. rewrite Z.add_comm with (n := 1), Z.pow_add_r, Z.pow_1_r by (try lia; apply len_nonneg). nia.
Qed.
Lemma trim_ok : forall base l, 2 <= base -> is_digits base l ->
  base ^ len (trim (base - 1) l) - worth base (trim (base - 1) l) = base ^ len l - worth base l
  /\ is_digits base (trim (base - 1) l) /\ (trim (base - 1) l = [] \/ hd 0 (trim (base - 1) l) < base - 1).
Proof.
  intros base l B H. induction H as [|d l D H IH]; [cbn; split; [reflexivity|split; [constructor|left; reflexivity]]|]. cbn [trim].
  destruct (Z.eqb_spec d (base - 1)) as [E|E].
  - destruct IH as (I1 & I2 & I3). split; [|split; assumption]. rewrite I1, worth_cons, len_cons, E.
    rewrite Z.add_comm with (n := 1), Z.pow_add_r, Z.pow_1_r by (try lia; apply len_nonneg). nia.
  - split; [reflexivity|]. split; [constructor; assumption|right; cbn; lia].
Qed.
Lemma power_above_ok : forall base a j, 2 <= base -> a <= base ^ j -> (forall i, 0 <= i < j -> base ^ i < a) ->
  forall fuel k, 0 <= k <= j -> j <= k + Z.of_nat fuel -> power_above fuel base a k = j.
Proof.
  intros base a j B H1 H2. induction fuel as [|fuel IH]; intros k K F; [cbn; lia|]. cbn [power_above].
  destruct (Z.leb_spec a (base ^ k)) as [E|E].
  - destruct (Z.eq_dec k j) as [|N]; [assumption|]. specialize (H2 k ltac:(lia)). lia.
  - apply IH; [|lia]. destruct (Z.eq_dec k j) as [->|]; lia.
Qed.
Lemma neg_minimal_ok : forall base a, 2 <= base -> 0 < a -> neg_minimal base (digs base a) = complement base a /\ is_digits base (neg_minimal base (digs base a)).
Proof.
  intros base a B A. destruct (digs_ok base a B ltac:(lia)) as (E1 & E2 & E3 & _ & _). set (l := digs base a) in *. clearbody l.
  destruct (flip_ok base l B E2) as [F1 F2]. destruct (plus_one_ok base _ B F2) as (P1 & P2 & P3 & P4). rewrite F1 in P1. rewrite len_map in P1.
  pose proof (worth_range base _ B P2) as PR. pose proof (worth_range base _ B E2) as LR.
  assert (len (fst (plus_one base (map (fun d => base - 1 - d) l))) = len l) as PL by (unfold len; rewrite P3, map_length; reflexivity). rewrite PL in PR.
  destruct (trim_ok base _ B P2) as (T1 & T2 & T3). unfold neg_minimal, complement. cbn zeta.
  set (m := fst (plus_one base (map (fun d => base - 1 - d) l))) in *. set (c := snd (plus_one base (map (fun d => base - 1 - d) l))) in *.
  assert (c = 0 \/ c = 1) as C by lia. assert (worth base m = base ^ len l - a) as Wm by (destruct C as [C|C]; rewrite C in P1; lia).
  rewrite PL, Wm in T1. set (r := trim (base - 1) m) in *. clearbody r.
  assert (worth base r = base ^ len r - a) as Wr by lia. pose proof (worth_range base r B T2) as RR. pose proof (len_nonneg _ r) as Lr.
  split; [|constructor; [lia|exact T2]].
  assert (forall i, 0 <= i < len r -> base ^ i < a) as Low.
  { intros i Hi. destruct r as [|d r]; [rewrite len_nil in Hi; lia|]. destruct T3 as [T3|T3]; [discriminate|]. cbn [hd] in T3. apply Forall_cons_iff in T2. destruct T2 as [D T2].
    rewrite worth_cons in Wr. rewrite len_cons in *. pose proof (worth_range base r B T2) as R2. rewrite Z.add_comm, Z.pow_add_r, Z.pow_1_r in Wr by (try lia; apply len_nonneg).
    assert (base ^ i <= base ^ len r) by (apply Z.pow_le_mono_r; lia). revert H Wr R2. generalize (base ^ i) (base ^ len r) (worth base r). intros. nia. }
  rewrite (power_above_ok base a (len r) B ltac:(lia) Low).
  - symmetry. apply (digs_unique base _ _ B); [constructor; [lia|exact T2]|discriminate|cbn; lia|]. rewrite worth_cons, Wr.
    rewrite Z.pow_add_r, Z.pow_1_r by lia. nia.
  - lia.
  - rewrite Nat2Z.inj_succ, Z2Nat.id by apply Z.log2_nonneg. destruct (Z.eq_dec (len r) 0) as [->|N]; [pose proof (Z.log2_nonneg a); lia|].
    specialize (Low (len r - 1) ltac:(lia)). assert (2 ^ (len r - 1) <= base ^ (len r - 1)) as Q by (apply Z.pow_le_mono_l; lia).
    assert (len r - 1 <= Z.log2 a); [|lia]. rewrite <- (Z.log2_pow2 (len r - 1)) by lia. apply Z.log2_le_mono. lia.
Qed.
