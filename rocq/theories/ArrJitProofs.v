(** Compiled Array operations against the builtins. *)
From Coq Require Import ZArith List Bool Lia.
From Verif Require Import ArrModel ArrSpec ArrProofs ArrJitModel.
Import ListNotations.
Open Scope Z_scope.

Section P.
Context {V : Type}.
Variable nil : V.
Ltac zs := change (@zlen V) with (@size V) in *.

(** The words of a real Array. *)
Definition real (r : @rep V) : Prop :=
  0 <= f_capa r /\ size (inl r) = INLINE /\
  (INLINE < f_capa r -> size (hp r) = f_capa r /\ 0 <= f_len r <= f_capa r).

Definition lift (o : option V) : option V := match o with Some v => Some v | None => Some nil end.

Lemma len_right : forall r, real r -> jit_len r = size (abs r).
Proof.
  intros r (H & Hi & Hh). unfold jit_len, abs. destruct (Z.ltb_spec INLINE (f_capa r)).
  - destruct (Hh H0). rewrite size_tk by lia. lia.
  - rewrite size_tk by lia. lia.
Qed.
Lemma abs_words : forall r, real r -> abs r = tk (jit_len r) (words r) /\ 0 <= jit_len r <= size (words r).
Proof.
  intros r (H & Hi & Hh). unfold abs, jit_len, words. destruct (Z.ltb_spec INLINE (f_capa r)).
  - destruct (Hh H0). split; [reflexivity | lia].
  - split; [reflexivity | lia].
Qed.
Lemma array_index_right : forall r i, real r -> 0 <= i -> array_index nil r i = lift (get (abs r) i).
Proof.
  intros r i (H & Hi & Hh) H0. unfold array_index, abs. destruct (Z.ltb_spec INLINE (f_capa r)).
  - destruct (Hh H1). rewrite get_tk. destruct (Z.leb_spec (f_len r) i); destruct (Z.ltb_spec i (f_len r)); try lia; [reflexivity|].
    rewrite get_at by lia. destruct (get_in (hp r) i ltac:(lia)) as (v & ->). reflexivity.
  - rewrite get_tk. destruct (Z.leb_spec (f_capa r) i); destruct (Z.ltb_spec i (f_capa r)); try lia; [reflexivity|].
    rewrite get_at by lia. destruct (get_in (inl r) i ltac:(lia)) as (v & ->). reflexivity.
Qed.
Lemma read_right : forall r i, real r -> jit_read nil r i = lift (s_at (abs r) i).
Proof.
  intros r i Hr. unfold jit_read, s_at, norm. rewrite (len_right r Hr). unfold size.
  destruct (Z.ltb_spec i 0).
  - destruct (Z.ltb_spec (i + Z.of_nat (length (abs r))) 0).
    + rewrite get_neg by lia. reflexivity.
    + apply array_index_right; assumption.
  - apply array_index_right; assumption.
Qed.

(** A write into a word below the length. *)
Lemma put_words : forall r d, real r -> size d = size (words r) ->
  real (set_words r d) /\ abs (set_words r d) = tk (jit_len r) d.
Proof.
  intros r d (H & Hi & Hh) Hd. unfold set_words, words, abs, jit_len, real in *. destruct (Z.ltb_spec INLINE (f_capa r)); cbn [f_capa f_len inl hp].
  - destruct (Hh H0). destruct (Z.ltb_spec INLINE (f_capa r)); [|lia]. split; [|reflexivity].
    split; [lia|]. split; [assumption|]. intros _. split; lia.
  - destruct (Z.ltb_spec INLINE (f_capa r)); [lia|]. split; [|reflexivity]. split; [lia|]. split; [lia|]. intros; lia.
Qed.

Lemma assign_fast : forall r i v, real r -> 0 <= i < size (abs r) ->
  exists r1, array_index_assign r i v = Some (Datatypes.inl r1) /\ real r1 /\ put (abs r) i v = Ok (abs r1).
Proof.
  intros r i v Hr Hi. pose proof (len_right r Hr) as HL. destruct (abs_words r Hr) as [HA HW].
  destruct (put_ok (words r) i v ltac:(lia)) as (d & Ed & Hs & Hg).
  destruct (put_words r d Hr ltac:(lia)) as [R1 R2].
  assert (Hp : put (abs r) i v = Ok (abs (set_words r d))).
  { destruct (put_ok (abs r) i v Hi) as (l' & El & Hs' & Hg'). rewrite El. f_equal. rewrite R2.
    apply get_ext. intros k Hk. rewrite Hg' by lia. rewrite get_tk, Hg by lia. rewrite HA, get_tk.
    destruct (Z.ltb_spec k (jit_len r)); destruct (Z.eqb_spec k i); try reflexivity. lia. }
  exists (set_words r d). split; [|split; assumption].
  unfold array_index_assign, words, set_words, jit_len in *. destruct (Z.ltb_spec INLINE (f_capa r)).
  - destruct (Z.leb_spec (f_len r) i); [lia|]. rewrite Ed. reflexivity.
  - destruct (Z.leb_spec (f_capa r) i); [lia|]. rewrite Ed. reflexivity.
Qed.
Lemma assign_slow : forall r i v, real r -> size (abs r) <= i -> array_index_assign r i v = Some (inr i).
Proof.
  intros r i v Hr Hi. rewrite <- (len_right r Hr) in Hi. unfold array_index_assign, jit_len in *.
  destruct (Z.ltb_spec INLINE (f_capa r)).
  - destruct (Z.leb_spec (f_len r) i); [reflexivity | lia].
  - destruct (Z.leb_spec (f_capa r) i); [reflexivity | lia].
Qed.

Lemma store_agrees : forall r i v, real r -> ~ (- 2 * size (abs r) <= i < - size (abs r)) ->
  jit_store nil false r i v = Some (index_assign nil false (abs r) i v).
Proof.
  intros r i v Hr Hx. pose proof (size_nn (abs r)). unfold jit_store, index_assign_regs, index_assign, guard.
  rewrite (len_right r Hr). destruct (Z.ltb_spec i 0).
  - destruct (Z.ltb_spec (i + size (abs r)) 0).
    + f_equal. unfold set_index. destruct (Z.leb_spec 0 (i + size (abs r))); [lia|]. destruct (Z.leb_spec 0 i); [lia|].
      rewrite !idx_norm. unfold norm. fold (size (abs r)). destruct (Z.ltb_spec (i + size (abs r)) 0); [|lia].
      destruct (Z.ltb_spec i 0); [|lia]. destruct (Z.ltb_spec (i + size (abs r) + size (abs r)) 0); [|lia].
      destruct (Z.ltb_spec (i + size (abs r)) 0); [reflexivity | lia].
    + destruct (assign_fast r (i + size (abs r)) v Hr ltac:(lia)) as (r1 & -> & _ & E). f_equal.
      unfold set_index. destruct (Z.leb_spec 0 i); [lia|]. rewrite idx_norm. unfold norm. fold (size (abs r)).
      destruct (Z.ltb_spec i 0); [|lia]. destruct (Z.ltb_spec (i + size (abs r)) 0); [lia|]. symmetry. exact E.
  - destruct (Z.lt_ge_cases i (size (abs r))).
    + destruct (assign_fast r i v Hr ltac:(lia)) as (r1 & -> & _ & E). f_equal.
      unfold set_index. destruct (Z.leb_spec 0 i); [|lia]. zs. destruct (Z.ltb_spec i (size (abs r))); [|lia]. symmetry. exact E.
    + rewrite assign_slow by assumption. reflexivity.
Qed.
(** The two situations in which it does not. *)
Lemma store_frozen : forall r i v, jit_store nil true r i v = jit_store nil false r i v.
Proof. reflexivity. Qed.
Lemma store_twice : forall r i v, real r -> - 2 * size (abs r) <= i < - size (abs r) ->
  index_assign nil false (abs r) i v = Err EIndex /\
  jit_store nil false r i v = Some (put (abs r) (i + 2 * size (abs r)) v).
Proof.
  intros r i v Hr Hx. pose proof (size_nn (abs r)). unfold jit_store, index_assign_regs, index_assign, guard.
  rewrite (len_right r Hr). destruct (Z.ltb_spec i 0); [|lia]. destruct (Z.ltb_spec (i + size (abs r)) 0); [|lia].
  unfold set_index. destruct (Z.leb_spec 0 i); [lia|]. destruct (Z.leb_spec 0 (i + size (abs r))); [lia|].
  rewrite !idx_norm. unfold norm. fold (size (abs r)). destruct (Z.ltb_spec i 0); [|lia].
  destruct (Z.ltb_spec (i + size (abs r)) 0); [|lia]. split; [reflexivity|]. destruct (Z.ltb_spec (i + size (abs r)) 0); [|lia].
  destruct (Z.ltb_spec (i + size (abs r) + size (abs r)) 0); [lia|]. f_equal. f_equal. lia.
Qed.

Lemma shl_agrees : forall fz r v, real r -> size (abs r) + 1 <= CAPA_MAX ->
  jit_shl fz r v = Some (append fz (abs r) [v]).
Proof.
  intros fz r v Hr Hc. unfold jit_shl. destruct fz; [reflexivity|].
  rewrite (append_right (abs r) [v]) by (unfold fits; rewrite size_one; exact Hc).
  pose proof (len_right r Hr) as HL. destruct (abs_words r Hr) as [HA HW].
  destruct Hr as (H & Hi & Hh). unfold shl_regs, jit_len, words in *. destruct (Z.ltb_spec INLINE (f_capa r)) as [Hb|Hb].
  - destruct (Hh Hb). destruct (Z.leb_spec (f_capa r) (f_len r)); [rewrite push_ok by lia; reflexivity|].
    destruct (put_ok (hp r) (f_len r) v ltac:(lia)) as (b & -> & Hs & Hg). f_equal. f_equal.
    rewrite HA. unfold abs. cbn [f_capa f_len hp]. destruct (Z.ltb_spec INLINE (f_capa r)); [|lia].
    apply get_ext. intros k Hk. rewrite get_app, !get_tk, get_one, size_tk by lia. rewrite Hg by lia.
    destruct (Z.ltb_spec k (f_len r + 1)); destruct (Z.eqb_spec k (f_len r)); destruct (Z.ltb_spec k (Z.min (f_len r) (size (hp r))));
      destruct (Z.ltb_spec k (f_len r)); destruct (Z.eqb_spec (k - Z.min (f_len r) (size (hp r))) 0); try lia; reflexivity.
  - destruct (Z.eqb_spec (f_capa r) INLINE); [rewrite push_ok by lia; reflexivity|].
    destruct (put_ok (inl r) (f_capa r) v ltac:(lia)) as (b & -> & Hs & Hg). f_equal. f_equal.
    rewrite HA. unfold abs. cbn [f_capa f_len inl]. destruct (Z.ltb_spec INLINE (f_capa r + 1)); [lia|].
    apply get_ext. intros k Hk. rewrite get_app, !get_tk, get_one, size_tk by lia. rewrite Hg by lia.
    destruct (Z.ltb_spec k (f_capa r + 1)); destruct (Z.eqb_spec k (f_capa r)); destruct (Z.ltb_spec k (Z.min (f_capa r) (size (inl r))));
      destruct (Z.ltb_spec k (f_capa r)); destruct (Z.eqb_spec (k - Z.min (f_capa r) (size (inl r))) 0); try lia; reflexivity.
Qed.

Lemma copy_words_ok : forall n (d s : list V) start i, 0 <= start -> 0 <= i -> i + Z.of_nat n <= size s ->
  start + i + Z.of_nat n <= size d ->
  exists d', copy_words n d s start i = Some d' /\ size d' = size d /\
  is d' (fun k => if (start + i <=? k) && (k <? start + i + Z.of_nat n) then get s (k - start) else get d k).
Proof.
  induction n; intros d s start i Hst Hi Hs Hd; cbn [copy_words].
  - eexists. split; [reflexivity|]. split; [reflexivity|]. intros k Hk.
    destruct (Z.leb_spec (start + i) k); destruct (Z.ltb_spec k (start + i + Z.of_nat 0)); cbn [andb]; lia || reflexivity.
  - rewrite get_at by lia. destruct (get_in s i ltac:(lia)) as (w & Ew). rewrite Ew.
    destruct (put_ok d (start + i) w ltac:(lia)) as (d1 & -> & Hs1 & Hg1).
    destruct (IHn d1 s start (i + 1) Hst ltac:(lia) ltac:(lia) ltac:(lia)) as (d2 & -> & Hs2 & Hg2).
    eexists. split; [reflexivity|]. split; [lia|]. intros k Hk. rewrite Hg2 by lia. rewrite Hg1 by lia.
    destruct (Z.leb_spec (start + (i + 1)) k); destruct (Z.ltb_spec k (start + (i + 1) + Z.of_nat n)); destruct (Z.leb_spec (start + i) k);
      destruct (Z.ltb_spec k (start + i + Z.of_nat (S n))); destruct (Z.eqb_spec k (start + i)); cbn [andb]; try lia; try reflexivity.
    subst k. replace (start + i - start) with i by lia. symmetry. exact Ew.
Qed.

Lemma slice_agrees : forall fz r start len x, real r -> 0 <= len ->
  match x with SArr q => real q /\ size (abs r) + len <= CAPA_MAX | _ => True end ->
  jit_slice nil fz r start len x = Some (slice_assign nil fz (abs r) start len (src_rhs x)).
Proof.
  intros fz r start len x Hr Hl Hx. unfold jit_slice. destruct fz; [reflexivity|].
  destruct (Z.ltb_spec start 0); [reflexivity|]. destruct x as [|q|h]; [reflexivity | | reflexivity].
  destruct Hx as [Hq Hc]. rewrite (len_right q Hq). destruct (Z.eqb_spec (size (abs q)) len); cbn [negb]; [|reflexivity].
  pose proof (len_right r Hr) as HL. destruct (abs_words r Hr) as [HA HW].
  pose proof (len_right q Hq) as HLq. destruct (abs_words q Hq) as [HAq HWq].
  destruct (Z.ltb_spec (jit_len r) (start + len)); [reflexivity|].
  destruct (copy_words_ok (Z.to_nat len) (words r) (words q) start 0) as (d & -> & Hs & Hg); try lia.
  destruct (put_words r d Hr ltac:(lia)) as [_ R2]. rewrite R2. f_equal.
  pose proof (slice_assign_right nil (abs r) start len (HArr (abs q)) ltac:(discriminate)) as SA. cbn [s_rhs] in SA.
  assert (En : norm (abs r) start = start) by (unfold norm; destruct (Z.ltb_spec start 0); [lia | reflexivity]). rewrite En in SA.
  unfold fits in SA. specialize (SA ltac:(lia) ltac:(lia)). cbn [src_rhs].
  destruct (slice_assign nil false (abs r) start len (HArr (abs q))) as [l'|er|]; [|destruct SA as [[SA|SA] _]; lia | destruct SA].
  f_equal. destruct SA as (_ & _ & SA). apply get_ext. intros k Hk. rewrite SA by lia. cbn beta. rewrite get_tk, Hg by lia.
  rewrite HA, get_tk. rewrite <- HA. rewrite Z.add_0_r. rewrite Z2Nat.id by lia.
  destruct (Z.leb_spec start k); destruct (Z.ltb_spec k (start + len)); destruct (Z.ltb_spec k start); cbn [andb]; try lia.
  - destruct (Z.ltb_spec k (jit_len r)); [|lia]. destruct (Z.ltb_spec k (start + size (abs q))); [|lia].
    rewrite HAq, get_tk. destruct (Z.ltb_spec (k - start) (jit_len q)); [reflexivity | lia].
  - destruct (Z.ltb_spec k (start + size (abs q))); [lia|]. replace (k - size (abs q) + len) with k by lia.
    rewrite HA, get_tk. reflexivity.
  - destruct (Z.ltb_spec k (jit_len r)); [|lia]. destruct (Z.ltb_spec k (size (abs r))); [reflexivity | lia].
Qed.

Lemma rotate_agrees : forall fz (r : @rep V) i, jit_rotate fz r i = rotate_bang fz (abs r) i.
Proof. intros fz r i. destruct fz; reflexivity. Qed.

End P.
