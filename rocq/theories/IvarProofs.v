(** Lemmas on the model of instance variables. *)
From Coq Require Import String Ascii ZArith Bool Arith Lia.
From Coq Require Import List Permutation.
From Verif Require Import IvarModel IvarSpec.
Import ListNotations.
Local Open Scope nat_scope.

(** ** Lists *)

Lemma upd_length : forall A (l : list A) i x, length (upd l i x) = length l.
Proof. induction l; destruct i; cbn; auto. Qed.

Lemma nth_error_upd_same : forall A (l : list A) i x, i < length l -> nth_error (upd l i x) i = Some x.
Proof. induction l; destruct i; cbn; intros; try lia; auto. apply IHl. lia. Qed.

Lemma nth_error_upd_other : forall A (l : list A) i j x, i <> j -> nth_error (upd l i x) j = nth_error l j.
Proof. induction l; destruct i, j; cbn; intros; try congruence; auto. Qed.

Lemma nth_upd_same : forall A (l : list A) i x d, i < length l -> nth i (upd l i x) d = x.
Proof. induction l; destruct i; cbn; intros; try lia; auto. apply IHl. lia. Qed.

Lemma nth_upd_other : forall A (l : list A) i j x d, i <> j -> nth j (upd l i x) d = nth j l d.
Proof. induction l; destruct i, j; cbn; intros; try congruence; auto. Qed.

Lemma nth_error_lt : forall A (l : list A) i x, nth_error l i = Some x -> i < length l.
Proof. intros. apply nth_error_Some. congruence. Qed.

Lemma nth_pad : forall (l : list (option val)) m j, nth j (l ++ repeat None m) None = nth j l None.
Proof.
  intros l m j. destruct (Nat.lt_ge_cases j (length l)).
  - apply app_nth1. assumption.
  - rewrite app_nth2 by assumption. rewrite (nth_overflow l) by assumption. apply nth_repeat.
Qed.

Lemma nth_error_app_Some : forall A (l l' : list A) i x,
  nth_error l i = Some x -> nth_error (l ++ l') i = Some x.
Proof. intros. rewrite nth_error_app1; auto. eapply nth_error_lt; eauto. Qed.

Lemma nth_error_snoc : forall A (l : list A) y i x, nth_error (l ++ [y]) i = Some x ->
  nth_error l i = Some x \/ (i = length l /\ x = y).
Proof.
  intros A l y i x H. destruct (Nat.lt_ge_cases i (length l)).
  - left. rewrite nth_error_app1 in H by assumption. exact H.
  - right. rewrite nth_error_app2 in H by assumption.
    destruct (i - length l) as [ | k ] eqn:E.
    + cbn in H. split; [ lia | congruence ].
    + destruct k; discriminate H.
Qed.

Lemma nth_error_last : forall A (l : list A) y, nth_error (l ++ [y]) (length l) = Some y.
Proof. intros. rewrite nth_error_app2 by lia. rewrite Nat.sub_diag. reflexivity. Qed.

Lemma index_of_Some : forall n l i, index_of n l = Some i -> nth_error l i = Some n.
Proof.
  induction l as [ | h t IH ]; cbn; intros i H; [ discriminate | ].
  destruct (String.eqb_spec n h).
  - inversion H. subst. reflexivity.
  - destruct (index_of n t); cbn in H; [ | discriminate ]. inversion H. subst. cbn. auto.
Qed.

Lemma index_of_None : forall n l, index_of n l = None <-> ~ In n l.
Proof.
  induction l as [ | h t IH ]; cbn; [ tauto | ].
  destruct (String.eqb_spec n h).
  - split; [ discriminate | intuition congruence ].
  - destruct (index_of n t); cbn; split; intros; try discriminate; try tauto; intuition congruence.
Qed.

Lemma index_of_nth : forall n l i, NoDup l -> nth_error l i = Some n -> index_of n l = Some i.
Proof.
  intros n l i ND H. destruct (index_of n l) as [ j | ] eqn:E.
  - apply index_of_Some in E. f_equal.
    apply (proj1 (NoDup_nth_error l) ND).
    + eapply nth_error_lt; eauto.
    + congruence.
  - apply index_of_None in E. exfalso. apply E. eapply nth_error_In; eauto.
Qed.

(** ** Slots *)

Definition slot (ob : obj) (i : nat) : option val :=
  if inlined (o_object ob) i then nth i (o_inline ob) None
  else match o_table ob with
       | Some t => nth (spill_index (o_object ob) i) (cells t) None
       | None => None
       end.

Lemma get_slot : forall ob i, get_by_id ob i = slot ob i.
Proof.
  intros ob i. unfold get_by_id, slot. destruct (inlined _ _); auto.
  destruct (o_table ob) as [ t | ]; auto.
  destruct (Nat.ltb_spec (spill_index (o_object ob) i) (length (cells t))); auto.
  rewrite nth_overflow; auto.
Qed.

Definition table_ok (t : option table) : Prop :=
  match t with Some t => cap t <> 0 /\ length (cells t) <= cap t | None => True end.
Definition shape (ob : obj) : Prop :=
  (o_object ob = true -> length (o_inline ob) = INLINE) /\ table_ok (o_table ob).

Lemma npot_ge : forall n, n <= npot n.
Proof.
  intros n. unfold npot. destruct (Nat.le_gt_cases n 1).
  - destruct n as [ | [ | ] ]; cbn; lia.
  - apply Nat.log2_up_spec. assumption.
Qed.

Lemma npot_pos : forall n, npot n <> 0.
Proof. intros. unfold npot. apply Nat.pow_nonzero. discriminate. Qed.

Lemma resize_length : forall t n, length (cells (resize t n)) = Nat.max n (length (cells t)).
Proof.
  intros t n. unfold resize. destruct (Nat.ltb_spec (length (cells t)) n); cbn; [ | lia ].
  rewrite app_length, repeat_length. lia.
Qed.

Lemma resize_ok : forall t n, cap t <> 0 -> length (cells t) <= cap t ->
  cap (resize t n) <> 0 /\ length (cells (resize t n)) <= cap (resize t n).
Proof.
  intros t n Z L. split.
  - unfold resize. destruct (_ <? _); auto. cbn [cap]. destruct (_ <? _); auto. apply npot_pos.
  - rewrite resize_length. unfold resize.
    destruct (Nat.ltb_spec (length (cells t)) n); [ | lia ]. cbn [cap].
    destruct (Nat.ltb_spec (cap t) n); [ | lia ]. pose proof (npot_ge n). lia.
Qed.

Lemma resize_new_ok : forall n, n <> 0 ->
  cap (resize (with_capacity n) n) <> 0 /\
  length (cells (resize (with_capacity n) n)) <= cap (resize (with_capacity n) n).
Proof.
  intros n Z. apply resize_ok; cbn [with_capacity cap cells length]; [ | lia ].
  destruct (Nat.eqb_spec n 0); [ congruence | apply npot_pos ].
Qed.

Lemma resize_cell : forall t n k, nth k (cells (resize t n)) None = nth k (cells t) None.
Proof. intros. unfold resize. destruct (_ <? _); auto. cbn. apply nth_pad. Qed.

Lemma spill_inj : forall b i j, inlined b i = false -> inlined b j = false ->
  spill_index b i = spill_index b j -> i = j.
Proof.
  unfold inlined, spill_index. intros [ | ] i j; cbn; auto.
  intros A B. apply Nat.leb_gt in A. apply Nat.leb_gt in B. unfold INLINE. lia.
Qed.

(** The table a store works on. *)
Definition grown (ob : obj) (k : nat) : table :=
  match o_table ob with
  | Some t => if length (cells t) <=? k then resize t (k + 1) else t
  | None => resize (with_capacity (k + 1)) (k + 1)
  end.

Lemma grown_len : forall ob k, k < length (cells (grown ob k)).
Proof.
  intros. unfold grown. destruct (o_table ob) as [ t | ].
  - destruct (Nat.leb_spec (length (cells t)) k); auto. rewrite resize_length. lia.
  - rewrite resize_length. lia.
Qed.

Lemma grown_ok : forall ob k, shape ob ->
  cap (grown ob k) <> 0 /\ length (cells (grown ob k)) <= cap (grown ob k).
Proof.
  intros ob k (_ & T). unfold grown. destruct (o_table ob) as [ t | ].
  - destruct T. destruct (_ <=? _); auto. apply resize_ok; auto.
  - apply resize_new_ok. lia.
Qed.

Lemma grown_cell : forall ob k j, nth j (cells (grown ob k)) None =
  match o_table ob with Some t => nth j (cells t) None | None => None end.
Proof.
  intros. unfold grown. destruct (o_table ob) as [ t | ].
  - destruct (_ <=? _); auto. apply resize_cell.
  - rewrite resize_cell. destruct j; reflexivity.
Qed.

Lemma set_slot_same : forall ob i v, shape ob -> slot (set_by_id ob i v) i = Some v.
Proof.
  intros ob i v (I & T). unfold set_by_id. fold (grown ob (spill_index (o_object ob) i)).
  destruct (inlined (o_object ob) i) eqn:E.
  - unfold slot. cbn. rewrite E. apply nth_upd_same.
    unfold inlined in E. apply andb_true_iff in E. destruct E as (E1 & E2).
    rewrite (I E1). apply Nat.ltb_lt. assumption.
  - unfold slot. cbn. rewrite E. apply nth_upd_same. apply grown_len.
Qed.

Lemma set_slot_other : forall ob i j v, i <> j -> slot (set_by_id ob i v) j = slot ob j.
Proof.
  intros ob i j v D. unfold set_by_id. fold (grown ob (spill_index (o_object ob) i)).
  destruct (inlined (o_object ob) i) eqn:E; unfold slot; cbn; destruct (inlined (o_object ob) j) eqn:F; auto.
  - apply nth_upd_other. assumption.
  - rewrite nth_upd_other.
    + rewrite grown_cell. reflexivity.
    + intros H. apply D. eapply spill_inj; eauto.
Qed.

Lemma remove_slot_same : forall ob i, slot (remove_by_id ob i) i = None.
Proof.
  intros ob i. unfold remove_by_id. destruct (inlined (o_object ob) i) eqn:E.
  - unfold slot. cbn. rewrite E. destruct (Nat.lt_ge_cases i (length (o_inline ob))).
    + apply nth_upd_same. assumption.
    + apply nth_overflow. rewrite upd_length. assumption.
  - destruct (o_table ob) as [ t | ] eqn:F.
    + destruct (Nat.ltb_spec (spill_index (o_object ob) i) (length (cells t))).
      * unfold slot. cbn. rewrite E. apply nth_upd_same. assumption.
      * unfold slot. rewrite E, F. apply nth_overflow. assumption.
    + unfold slot. rewrite E, F. reflexivity.
Qed.

Lemma remove_slot_other : forall ob i j, i <> j -> slot (remove_by_id ob i) j = slot ob j.
Proof.
  intros ob i j D. unfold remove_by_id.
  destruct (inlined (o_object ob) i) eqn:E.
  - unfold slot. cbn. destruct (inlined (o_object ob) j); auto. apply nth_upd_other. assumption.
  - destruct (o_table ob) as [ t | ] eqn:T; auto.
    destruct (_ <? _) eqn:L; auto.
    unfold slot. cbn. rewrite T. destruct (inlined (o_object ob) j) eqn:F; auto.
    apply nth_upd_other. intros H. apply D. eapply spill_inj; eauto.
Qed.

Lemma extend_slot : forall ob n i, slot (extend ob n) i = slot ob i.
Proof.
  intros. unfold extend, slot. destruct (o_table ob) as [ t | ] eqn:T; cbn;
    destruct (inlined (o_object ob) i); auto.
  - apply resize_cell.
  - rewrite resize_cell. destruct (spill_index (o_object ob) i); reflexivity.
Qed.

Lemma prepare_slot : forall ob n i, slot (prepare ob n) i = slot ob i.
Proof.
  intros ob [ n | ] i; cbn; auto. destruct (o_table ob) as [ t | ]; [ | apply extend_slot ].
  destruct (_ || _); auto. apply extend_slot.
Qed.

(** What a changed object keeps. *)
Definition keeps (ob ob' : obj) : Prop :=
  o_class ob' = o_class ob /\ o_object ob' = o_object ob /\
  (o_frozen ob = true -> o_frozen ob' = true) /\
  (forall t, o_table ob = Some t -> exists t', o_table ob' = Some t' /\ length (cells t) <= length (cells t')).

Lemma keeps_refl : forall ob, keeps ob ob.
Proof. intros. repeat split; auto. intros t H. exists t. auto. Qed.

Lemma set_keeps : forall ob i v, shape ob -> keeps ob (set_by_id ob i v) /\ shape (set_by_id ob i v).
Proof.
  intros ob i v S. pose proof S as (I & T). unfold set_by_id.
  fold (grown ob (spill_index (o_object ob) i)).
  destruct (inlined (o_object ob) i).
  - split.
    + repeat split; auto. cbn. intros t H. exists t. auto.
    + split; cbn; auto. rewrite upd_length. auto.
  - pose proof (grown_ok ob (spill_index (o_object ob) i) S) as (A & B).
    split.
    + repeat split; auto. cbn. intros t H.
      eexists. split; [ reflexivity | ]. cbn. rewrite upd_length. unfold grown. rewrite H.
      destruct (_ <=? _); auto. rewrite resize_length. lia.
    + split; cbn; auto. rewrite upd_length. auto.
Qed.

Lemma remove_keeps : forall ob i, shape ob -> keeps ob (remove_by_id ob i) /\ shape (remove_by_id ob i).
Proof.
  intros ob i S. pose proof S as (I & T). unfold remove_by_id.
  destruct (inlined (o_object ob) i).
  - split.
    + repeat split; auto. cbn. intros t H. exists t. auto.
    + split; cbn; auto. rewrite upd_length. auto.
  - destruct (o_table ob) as [ t | ] eqn:F; [ | split; [ apply keeps_refl | assumption ] ].
    destruct (_ <? _); [ | split; [ apply keeps_refl | assumption ] ].
    split.
    + repeat split; auto. cbn. intros t' H. eexists. split; [ reflexivity | ]. cbn.
      rewrite upd_length. assert (t' = t) by congruence. subst. auto.
    + split; cbn; auto. cbn in T. rewrite upd_length. auto.
Qed.

Lemma extend_keeps : forall ob n, n <> 0 -> shape ob -> keeps ob (extend ob n) /\ shape (extend ob n) /\
  exists t, o_table (extend ob n) = Some t /\ n <= length (cells t).
Proof.
  intros ob n Z S. pose proof S as (I & T). unfold extend.
  destruct (o_table ob) as [ t | ] eqn:F.
  - cbn in T. destruct T. repeat split; auto; cbn; try apply resize_ok; auto.
    + intros t' E. eexists. split; [ reflexivity | ].
      assert (t' = t) by congruence. subst. rewrite resize_length. lia.
    + eexists. split; [ reflexivity | ]. rewrite resize_length. lia.
  - repeat split; auto; cbn; try apply resize_new_ok; auto.
    + intros t' E. congruence.
    + eexists. split; [ reflexivity | ]. rewrite resize_length. lia.
Qed.

Lemma prepare_keeps : forall ob l, l <> Some 0 -> shape ob -> keeps ob (prepare ob l) /\ shape (prepare ob l) /\
  forall n, l = Some n -> exists t, o_table (prepare ob l) = Some t /\ n <= length (cells t).
Proof.
  intros ob [ n | ] Z S; cbn [prepare].
  - assert (Z' : n <> 0) by congruence. pose proof (extend_keeps ob n Z' S) as (A & B & C).
    destruct (o_table ob) as [ t | ] eqn:F.
    + destruct ((cap t =? 0) || (length (cells t) <? n)) eqn:E.
      * split; [ exact A | ]. split; [ exact B | ]. intros m H. inversion H. subst. exact C.
      * split; [ apply keeps_refl | ]. split; [ exact S | ]. intros m H. inversion H. subst.
        exists t. split; auto. apply orb_false_iff in E. destruct E as (_ & E).
        apply Nat.ltb_ge in E. assumption.
    + split; [ exact A | ]. split; [ exact B | ]. intros m H. inversion H. subst. exact C.
  - split; [ apply keeps_refl | ]. split; [ assumption | ]. discriminate.
Qed.

(** ** What holds in every history *)

Definition class_ok (w : world) (c : nat) (ci : cinfo) : Prop :=
  NoDup (c_names ci) /\
  (c_single ci = false -> c_real ci = c) /\
  (c_single ci = true -> c_always ci = false) /\
  exists ri, nth_error (classes w) (c_real ci) = Some ri /\ c_single ri = false /\ c_object ri = c_object ci.

Definition obj_ok (w : world) (ob : obj) : Prop :=
  exists ci, nth_error (classes w) (o_class ob) = Some ci /\ o_object ob = c_object ci /\ shape ob /\
    (always_of w (c_real ci) = true -> o_frozen ob = true).

Definition site_ok (w : world) (s : string * option (nat * nat)) : Prop :=
  match s with
  | (n, Some (c, i)) => nth_error (names_of w c) i = Some n
  | _ => True
  end.

Definition unit_ok (w : world) (un : unit_) : Prop :=
  exists ci, nth_error (classes w) (u_class un) = Some ci /\ u_object un = c_object ci /\
    u_always un = c_always ci /\ u_len un <> Some 0 /\
    (u_always un && negb (u_self un) = false -> forall n i, In (n, i) (u_ivars un) ->
      nth_error (c_names ci) i = Some n /\
      (u_self un = true -> inlined (u_object un) i = false ->
        exists L, u_len un = Some L /\ spill_index (u_object un) i < L)).

Definition frame_ok (w : world) (f : nat * nat) : Prop :=
  exists un ob, nth_error (units w) (fst f) = Some un /\ nth_error (heap w) (snd f) = Some ob /\
    u_object un = o_object ob /\
    (u_always un = true -> o_frozen ob = true) /\
    (u_always un && negb (u_self un) = false -> forall n i, In (n, i) (u_ivars un) ->
      nth_error (names_of w (o_class ob)) i = Some n /\
      (u_self un = true -> inlined (u_object un) i = false ->
        exists t, o_table ob = Some t /\ spill_index (u_object un) i < length (cells t))).

Record Safe (w : world) : Prop := {
  s_class : forall c ci, nth_error (classes w) c = Some ci -> class_ok w c ci;
  s_obj : forall o ob, nth_error (heap w) o = Some ob -> obj_ok w ob;
  s_site : forall s x, nth_error (sites w) s = Some x -> site_ok w x;
  s_unit : forall u un, nth_error (units w) u = Some un -> unit_ok w un;
  s_frame : forall f x, nth_error (frames w) f = Some x -> frame_ok w x }.

Lemma safe_start : Safe start.
Proof. split; intros i x H; destruct i; discriminate H. Qed.

(** *** Class tables only grow *)

Record ext (w w' : world) : Prop := {
  e_ci : forall c ci, nth_error (classes w) c = Some ci ->
    exists ci', nth_error (classes w') c = Some ci' /\ c_single ci' = c_single ci /\
      c_real ci' = c_real ci /\ c_object ci' = c_object ci /\ c_always ci' = c_always ci /\
      forall i n, nth_error (c_names ci) i = Some n -> nth_error (c_names ci') i = Some n;
  e_len : length (classes w) <= length (classes w') }.

Lemma ext_refl : forall w, ext w w.
Proof. intros w. split; auto. intros c ci H. exists ci. repeat split; auto. Qed.

Lemma ext_names : forall w w' c i n, ext w w' -> nth_error (names_of w c) i = Some n ->
  nth_error (names_of w' c) i = Some n.
Proof.
  intros w w' c i n E H. unfold names_of in *.
  destruct (nth_error (classes w) c) as [ ci | ] eqn:C.
  - destruct (e_ci _ _ E _ _ C) as (ci' & C' & _ & _ & _ & _ & N). rewrite C'. auto.
  - destruct i; discriminate.
Qed.

Lemma ext_always : forall w w' c ci, ext w w' -> nth_error (classes w) c = Some ci ->
  always_of w' c = always_of w c.
Proof.
  intros w w' c ci E H. unfold always_of. rewrite H.
  destruct (e_ci _ _ E _ _ H) as (ci' & C' & _ & _ & _ & A & _). rewrite C'. assumption.
Qed.

(** Growing the classes keeps everything else right. *)
Lemma safe_ext : forall w cs, Safe w -> ext w (w_classes w cs) ->
  (forall c ci, nth_error cs c = Some ci -> class_ok (w_classes w cs) c ci) ->
  Safe (w_classes w cs).
Proof.
  intros w cs S E C. split; cbn; auto.
  - intros o ob H. destruct (s_obj _ S _ _ H) as (ci & A & B & D & F).
    destruct (e_ci _ _ E _ _ A) as (ci' & A' & s & r & ob' & al & _). cbn in A'.
    exists ci'. cbn. rewrite r. repeat split; auto; try congruence; try apply D.
    destruct (s_class _ S _ _ A) as (_ & _ & _ & (ri & R & _)).
    rewrite (ext_always w (w_classes w cs) _ _ E R). assumption.
  - intros s x H. pose proof (s_site _ S _ _ H) as K. destruct x as (n & [ (c & i) | ]); auto.
    cbn in K |- *. eapply (ext_names w (w_classes w cs)); eauto.
  - intros u un H. destruct (s_unit _ S _ _ H) as (ci & A & B & D & Z & F).
    destruct (e_ci _ _ E _ _ A) as (ci' & A' & s & r & ob' & al & N). cbn in A'.
    exists ci'. cbn. repeat split; auto; try congruence.
    + apply N. apply (proj1 (F ltac:(assumption) _ _ ltac:(eassumption))).
    + apply (proj2 (F ltac:(assumption) _ _ ltac:(eassumption))).
  - intros f x H. destruct (s_frame _ S _ _ H) as (un & ob & A & B & D & G & F).
    exists un, ob. cbn. repeat split; auto.
    + eapply (ext_names w (w_classes w cs)); eauto. apply (proj1 (F ltac:(assumption) _ _ ltac:(eassumption))).
    + apply (proj2 (F ltac:(assumption) _ _ ltac:(eassumption))).
Qed.

Lemma ext_put : forall w o ob, ext w (put w o ob).
Proof. intros. split; auto. cbn. intros c ci H. exists ci. repeat split; auto. Qed.

Lemma names_put : forall w o ob c, names_of (put w o ob) c = names_of w c.
Proof. reflexivity. Qed.

(** *** A new name *)

Lemma add_name_same : forall w c ci n, nth_error (classes w) c = Some ci ->
  exists ci', nth_error (classes (add_name w c n)) c = Some ci' /\ c_names ci' = c_names ci ++ [n] /\
    c_single ci' = c_single ci /\ c_real ci' = c_real ci /\ c_object ci' = c_object ci /\
    c_always ci' = c_always ci /\ c_sealed ci' = c_sealed ci.
Proof.
  intros w c ci n H. unfold add_name. rewrite H. cbn [w_classes classes].
  rewrite nth_error_upd_same by (eapply nth_error_lt; eauto).
  eexists. split; [ reflexivity | ]. cbn. auto 10.
Qed.

Lemma add_name_other : forall w c d n, c <> d ->
  nth_error (classes (add_name w c n)) d = nth_error (classes w) d.
Proof.
  intros w c d n D. unfold add_name. destruct (nth_error (classes w) c); auto.
  cbn. apply nth_error_upd_other. assumption.
Qed.

Lemma add_name_ext : forall w c n, ext w (add_name w c n).
Proof.
  intros w c n. split.
  - intros d ci H. destruct (Nat.eq_dec c d) as [ <- | D ].
    + destruct (add_name_same w c ci n H) as (ci' & A & N & s & r & o & a & _).
      exists ci'. repeat split; auto. intros i m K. rewrite N. apply nth_error_app_Some. assumption.
    + exists ci. rewrite add_name_other by assumption. repeat split; auto.
  - unfold add_name. destruct (nth_error (classes w) c); auto. cbn. rewrite upd_length. auto.
Qed.

Lemma add_name_parts : forall w c n, heap (add_name w c n) = heap w /\ sites (add_name w c n) = sites w /\
  units (add_name w c n) = units w /\ frames (add_name w c n) = frames w /\ r15 (add_name w c n) = r15 w.
Proof. intros. unfold add_name. destruct (nth_error (classes w) c); cbn; auto. Qed.

Lemma nodup_snoc : forall (l : list string) n, NoDup l -> ~ In n l -> NoDup (l ++ [n]).
Proof.
  induction l as [ | h t IH ]; cbn; intros n ND NI; [ repeat constructor; auto | ].
  inversion ND. subst. constructor.
  - intros K. apply in_app_or in K. destruct K as [ K | [ K | [] ] ]; [ auto | apply NI; auto ].
  - apply IH; auto.
Qed.

Lemma safe_add_name : forall w c n, Safe w -> ~ In n (names_of w c) -> Safe (add_name w c n).
Proof.
  intros w c n S NI. unfold add_name. destruct (nth_error (classes w) c) as [ ci | ] eqn:C; auto.
  pose proof (add_name_ext w c n) as E. pose proof (add_name_same w c ci n C) as SM.
  pose proof (fun d => add_name_other w c d n) as OT.
  unfold add_name in E, SM, OT. rewrite C in E, SM, OT.
  apply safe_ext; auto.
  intros d di H.
  assert (R : forall r ri, nth_error (classes w) r = Some ri -> c_single ri = false ->
    exists ri', nth_error (classes (w_classes w (upd (classes w) c
      {| c_names := c_names ci ++ [n]; c_single := c_single ci; c_real := c_real ci;
         c_object := c_object ci; c_always := c_always ci; c_sealed := c_sealed ci |}))) r = Some ri'
      /\ c_single ri' = false /\ c_object ri' = c_object ri).
  { intros r ri A B. destruct (e_ci _ _ E _ _ A) as (ri' & A' & s & _ & o & _). exists ri'. split; auto. split; congruence. }
  destruct (Nat.eq_dec c d) as [ <- | D ].
  - destruct SM as (ci' & A & N & s & r & o & a & sl). cbn [w_classes classes] in A.
    assert (di = ci') by congruence. subst di.
    destruct (s_class _ S _ _ C) as (ND & X1 & X2 & (ri & X3 & X4 & X5)).
    destruct (R _ _ X3 X4) as (ri' & Y1 & Y2 & Y3).
    unfold class_ok. rewrite N, s, r, o, a. split.
    + apply nodup_snoc; auto. unfold names_of in NI. rewrite C in NI. assumption.
    + repeat split; auto. exists ri'. repeat split; auto. congruence.
  - specialize (OT d D). cbn [w_classes classes] in OT. rewrite OT in H.
    destruct (s_class _ S _ _ H) as (ND & X1 & X2 & (ri & X3 & X4 & X5)).
    destruct (R _ _ X3 X4) as (ri' & Y1 & Y2 & Y3).
    repeat split; auto. exists ri'. repeat split; auto. congruence.
Qed.

(** *** A changed object *)

Lemma heap_put : forall w o ob j x, nth_error (heap (put w o ob)) j = Some x ->
  (j = o /\ x = ob /\ o < length (heap w)) \/ (j <> o /\ nth_error (heap w) j = Some x).
Proof.
  intros w o ob j x H. cbn in H. destruct (Nat.eq_dec o j) as [ <- | D ].
  - left. pose proof (nth_error_lt _ _ _ _ H) as L. rewrite upd_length in L.
    rewrite nth_error_upd_same in H by assumption. repeat split; auto. congruence.
  - right. rewrite nth_error_upd_other in H by assumption. auto.
Qed.

Lemma heap_put_same : forall w o ob x, nth_error (heap w) o = Some x ->
  nth_error (heap (put w o ob)) o = Some ob.
Proof. intros. cbn. apply nth_error_upd_same. eapply nth_error_lt; eauto. Qed.

Lemma heap_put_other : forall w o ob j, o <> j ->
  nth_error (heap (put w o ob)) j = nth_error (heap w) j.
Proof. intros. cbn. apply nth_error_upd_other. assumption. Qed.

Lemma safe_put : forall w o ob ob', Safe w -> nth_error (heap w) o = Some ob ->
  keeps ob ob' -> shape ob' -> Safe (put w o ob').
Proof.
  intros w o ob ob' S H (K1 & K2 & K3 & K4) SH. split; auto.
  - exact (s_class _ S).
  - intros j x J. apply heap_put in J. destruct J as [ (-> & -> & _) | (_ & J) ].
    + destruct (s_obj _ S _ _ H) as (ci & A & B & D & F). exists ci.
      rewrite K1, K2. repeat split; auto; apply SH.
    + exact (s_obj _ S _ _ J).
  - exact (s_site _ S).
  - exact (s_unit _ S).
  - intros f x F. destruct (s_frame _ S _ _ F) as (un & fo & A & B & D & G & K).
    destruct (Nat.eq_dec o (snd x)) as [ -> | N ].
    + assert (fo = ob) by congruence. subst fo. exists un, ob'.
      rewrite (heap_put_same _ _ _ _ B). rewrite K1, K2. repeat split; auto.
      * rewrite names_put. apply (proj1 (K ltac:(assumption) _ _ ltac:(eassumption))).
      * intros U I. destruct (proj2 (K ltac:(assumption) _ _ ltac:(eassumption)) U I) as (t & T1 & T2).
        destruct (K4 _ T1) as (t' & T3 & T4). exists t'. split; auto. lia.
    + exists un, fo. rewrite (heap_put_other _ _ _ _ N). repeat split; auto.
      * rewrite names_put. apply (proj1 (K ltac:(assumption) _ _ ltac:(eassumption))).
      * apply (proj2 (K ltac:(assumption) _ _ ltac:(eassumption))).
Qed.

(** *** New sites, units, frames, objects *)

Lemma safe_sites : forall w x, Safe w -> (forall s y, nth_error x s = Some y -> site_ok w y) ->
  Safe (w_sites w x).
Proof.
  intros w x S H. split; cbn; auto.
  - exact (s_class _ S).
  - exact (s_obj _ S).
  - exact (s_unit _ S).
  - exact (s_frame _ S).
Qed.

Lemma safe_unit : forall w un, Safe w -> unit_ok w un -> Safe (w_units w (units w ++ [un])).
Proof.
  intros w un S H. split; cbn; auto.
  - exact (s_class _ S).
  - exact (s_obj _ S).
  - exact (s_site _ S).
  - intros u x K. apply nth_error_snoc in K. destruct K as [ K | (_ & ->) ]; [ exact (s_unit _ S _ _ K) | assumption ].
  - intros f x F. destruct (s_frame _ S _ _ F) as (v & ob & A & B). exists v, ob. split; [ | assumption ].
    cbn. apply nth_error_app_Some. assumption.
Qed.

Lemma safe_frame : forall w f, Safe w -> frame_ok w f -> Safe (w_frames w (frames w ++ [f])).
Proof.
  intros w f S H. split; cbn; auto.
  - exact (s_class _ S).
  - exact (s_obj _ S).
  - exact (s_site _ S).
  - exact (s_unit _ S).
  - intros g x K. apply nth_error_snoc in K. destruct K as [ K | (_ & ->) ]; [ exact (s_frame _ S _ _ K) | assumption ].
Qed.

Lemma safe_push : forall w ob, Safe w -> obj_ok w ob -> Safe (w_heap w (heap w ++ [ob])).
Proof.
  intros w ob S H. split; cbn; auto.
  - exact (s_class _ S).
  - intros o x K. apply nth_error_snoc in K. destruct K as [ K | (_ & ->) ]; [ exact (s_obj _ S _ _ K) | assumption ].
  - exact (s_site _ S).
  - exact (s_unit _ S).
  - intros f x F. destruct (s_frame _ S _ _ F) as (v & fo & A & B & C). exists v, fo. split; [ assumption | ].
    split; [ | assumption ]. cbn. apply nth_error_app_Some. assumption.
Qed.

(** *** A new class *)

Lemma app_ext : forall w ci, ext w (w_classes w (classes w ++ [ci])).
Proof.
  intros. split.
  - intros c x H. exists x. cbn. rewrite (nth_error_app_Some _ _ _ _ _ H). repeat split; auto.
  - cbn. rewrite app_length. lia.
Qed.

Lemma safe_class : forall w ci, Safe w -> NoDup (c_names ci) ->
  (c_single ci = true -> c_always ci = false) ->
  ((c_single ci = false /\ c_real ci = length (classes w)) \/
   (c_single ci = true /\ exists ri, nth_error (classes w) (c_real ci) = Some ri /\ c_single ri = false /\ c_object ri = c_object ci)) ->
  Safe (w_classes w (classes w ++ [ci])).
Proof.
  intros w ci S ND AL K. apply safe_ext; auto.
  - apply app_ext.
  - intros c x H. apply nth_error_snoc in H. destruct H as [ H | (-> & ->) ].
    + destruct (s_class _ S _ _ H) as (X0 & X1 & X2 & (ri & X3 & X4 & X5)).
      repeat split; auto. exists ri. cbn. rewrite (nth_error_app_Some _ _ _ _ _ X3). auto.
    + split; [ assumption | ]. destruct K as [ (s & r) | (s & ri & A & B & C) ].
      * repeat split; auto. exists ci. rewrite r. cbn. rewrite nth_error_last. auto.
      * repeat split; auto; try congruence. exists ri. cbn. rewrite (nth_error_app_Some _ _ _ _ _ A). auto.
Qed.

(** *** A singleton class *)

Definition single_of (ci : cinfo) (c : nat) : cinfo :=
  {| c_names := c_names ci; c_single := true; c_real := c; c_object := c_object ci;
     c_always := false; c_sealed := false |}.

(** The object moves to a class with the names of its old one. *)
Lemma safe_single : forall w o ob ci, Safe w -> nth_error (heap w) o = Some ob ->
  nth_error (classes w) (o_class ob) = Some ci -> c_single ci = false ->
  Safe (put (w_classes w (classes w ++ [single_of ci (o_class ob)])) o (o_set_class ob (length (classes w)))).
Proof.
  intros w o ob ci S H C SG.
  destruct (s_class _ S _ _ C) as (ND & RL & _ & _). specialize (RL SG).
  set (w1 := w_classes w (classes w ++ [single_of ci (o_class ob)])).
  assert (S1 : Safe w1).
  { apply safe_class; auto. right. split; auto. exists ci. auto. }
  assert (H1 : nth_error (heap w1) o = Some ob) by exact H.
  assert (NC : nth_error (classes w1) (length (classes w)) = Some (single_of ci (o_class ob)))
    by (cbn; apply nth_error_last).
  assert (C1 : nth_error (classes w1) (o_class ob) = Some ci) by (cbn; apply nth_error_app_Some; exact C).
  assert (NN : names_of w1 (length (classes w)) = names_of w1 (o_class ob)).
  { unfold names_of. rewrite NC, C1. reflexivity. }
  destruct (s_obj _ S1 _ _ H1) as (ci1 & A & B & D & F).
  assert (ci1 = ci) by congruence. subst ci1.
  split; auto.
  - exact (s_class _ S1).
  - intros j x J. apply heap_put in J. destruct J as [ (-> & -> & _) | (_ & J) ].
    + exists (single_of ci (o_class ob)). cbn [o_set_class o_class o_object]. cbn in NC.
      repeat split; auto; try apply D. cbn [single_of c_real]. rewrite <- RL. exact F.
    + exact (s_obj _ S1 _ _ J).
  - exact (s_site _ S1).
  - exact (s_unit _ S1).
  - intros f x K. destruct (s_frame _ S1 _ _ K) as (un & fo & A1 & B1 & D1 & G1 & K1).
    destruct (Nat.eq_dec o (snd x)) as [ -> | N ].
    + assert (fo = ob) by congruence. subst fo.
      exists un, (o_set_class ob (length (classes w))). rewrite (heap_put_same _ _ _ _ B1).
      repeat split; auto.
      * rewrite names_put. cbn [o_set_class o_class]. rewrite NN.
        apply (proj1 (K1 ltac:(assumption) _ _ ltac:(eassumption))).
      * apply (proj2 (K1 ltac:(assumption) _ _ ltac:(eassumption))).
    + exists un, fo. rewrite (heap_put_other _ _ _ _ N). repeat split; auto.
      * rewrite names_put. apply (proj1 (K1 ltac:(assumption) _ _ ltac:(eassumption))).
      * apply (proj2 (K1 ltac:(assumption) _ _ ltac:(eassumption))).
Qed.

Lemma get_singleton_cases : forall w o,
  (get_singleton w o = (w, Done) \/ get_singleton w o = (w, TypeError)) \/
  exists ob ci, nth_error (heap w) o = Some ob /\ nth_error (classes w) (o_class ob) = Some ci /\
    c_single ci = false /\
    get_singleton w o =
      (put (w_classes w (classes w ++ [single_of ci (o_class ob)])) o (o_set_class ob (length (classes w))), Done).
Proof.
  intros w o. unfold get_singleton.
  destruct (nth_error (heap w) o) as [ ob | ] eqn:H; auto.
  destruct (nth_error (classes w) (o_class ob)) as [ ci | ] eqn:C; auto.
  destruct (c_single ci) eqn:SG; auto. destruct (c_sealed ci); auto.
  right. exists ob, ci. auto.
Qed.

(** ** Ids *)

Lemma get_ivar_id_spec : forall w c n w1 i, Safe w -> (exists ci, nth_error (classes w) c = Some ci) ->
  get_ivar_id w c n = (w1, i) ->
  Safe w1 /\ nth_error (names_of w1 c) i = Some n /\ ext w w1 /\
  (w1 = w \/ (w1 = add_name w c n /\ ~ In n (names_of w c) /\ i = length (names_of w c))).
Proof.
  intros w c n w1 i S (ci & C) H. unfold get_ivar_id, get_ivarid in H.
  destruct (index_of n (names_of w c)) as [ j | ] eqn:I.
  - inversion H. subst. split; [ exact S | ]. split; [ apply index_of_Some; assumption | ].
    split; [ apply ext_refl | auto ].
  - apply index_of_None in I. inversion H. subst.
    split; [ apply safe_add_name; auto | ]. split; [ | split; [ apply add_name_ext | right; auto ] ].
    destruct (add_name_same w c ci n C) as (ci' & A & N & _). unfold names_of.
    rewrite A, N, C. apply nth_error_last.
Qed.

Lemma get_ivar_id_heap : forall w c n w1 i, get_ivar_id w c n = (w1, i) ->
  heap w1 = heap w /\ sites w1 = sites w /\ units w1 = units w /\ frames w1 = frames w.
Proof.
  intros w c n w1 i H. unfold get_ivar_id in H. destruct (get_ivarid w c n); inversion H; subst; auto.
  destruct (add_name_parts w c n) as (A & B & C & D & _). auto.
Qed.

Lemma all_ids_spec : forall w c l ids, all_ids w c l = Some ids ->
  forall n i, In (n, i) ids -> get_ivarid w c n = Some i.
Proof.
  induction l as [ | m t IH ]; cbn; intros ids H n i K.
  - inversion H. subst. destruct K.
  - destruct (get_ivarid w c m) as [ j | ] eqn:G; [ | discriminate ].
    destruct (all_ids w c t) as [ r | ] eqn:A; [ | discriminate ].
    inversion H. subst. destruct K as [ K | K ]; [ inversion K; subst; auto | eauto ].
Qed.

Lemma existsb_none : forall A (f : A -> bool) l x, existsb f l = false -> In x l -> f x = false.
Proof.
  intros A f l x H K. destruct (f x) eqn:F; auto.
  assert (existsb f l = true) by (apply existsb_exists; eauto). congruence.
Qed.

(** ** Compiled code *)

Lemma compile_cases : forall w c b l, Safe w -> compilable w (Compile c b l) ->
  compile w c b l = (w, Done) \/
  exists un, unit_ok w un /\ compile w c b l = (w_units w (units w ++ [un]), Done).
Proof.
  intros w c b l S CP. unfold compile.
  destruct (nth_error (classes w) c) as [ ci | ] eqn:C; auto.
  destruct (negb b && c_always ci) eqn:NA.
  - right. eexists. split; [ | reflexivity ].
    apply andb_true_iff in NA. destruct NA as (_ & AL).
    exists ci. cbn. repeat split; auto; try congruence; discriminate.
  - destruct (all_ids w c l) as [ ids | ] eqn:AI; auto.
    destruct (b && c_always ci && negb (length l =? 0)) eqn:P.
    { apply andb_true_iff in P. destruct P as (P & L). apply andb_true_iff in P. destruct P as (-> & AL).
      destruct l; [ discriminate | ]. cbn in CP. unfold always_of in CP. rewrite C in CP. congruence. }
    right. eexists. split; [ | reflexivity ].
    assert (NM : forall n i, In (n, i) ids -> nth_error (c_names ci) i = Some n).
    { intros n i K. pose proof (all_ids_spec _ _ _ _ AI _ _ K) as G. unfold get_ivarid, names_of in G.
      rewrite C in G. apply index_of_Some. assumption. }
    assert (RM : forall n i, In (n, i) ids -> inlined (c_object ci) i = false ->
      spill_index (c_object ci) i < (if c_object ci then length (c_names ci) - INLINE else length (c_names ci))).
    { intros n i K I. pose proof (nth_error_lt _ _ _ _ (NM _ _ K)) as L.
      unfold inlined, spill_index in *. destruct (c_object ci); auto. cbn [andb] in I.
      apply Nat.ltb_ge in I. lia. }
    exists ci. cbn [u_class u_object u_always u_len u_self u_ivars].
    split; [ assumption | ]. split; [ reflexivity | ]. split; [ reflexivity | ]. split.
    + destruct (b && existsb _ ids) eqn:X; [ | discriminate ].
      apply andb_true_iff in X. destruct X as (_ & X). apply existsb_exists in X.
      destruct X as ((n & i) & K & I). cbn [snd] in I. apply negb_true_iff in I.
      pose proof (RM _ _ K I). intros E. inversion E. lia.
    + intros _ n i K. split; [ eauto | ]. intros -> I. cbn [andb].
      assert (X : existsb (fun ni => negb (inlined (c_object ci) (snd ni))) ids = true).
      { apply existsb_exists. exists (n, i). split; auto. cbn [snd]. rewrite I. reflexivity. }
      rewrite X. eexists. split; [ reflexivity | ]. eapply RM; eauto.
Qed.

Lemma enter_cases : forall w u o, Safe w ->
  enter w u o = (w, Done) \/
  exists un ob, nth_error (heap w) o = Some ob /\ keeps ob (prepare ob (u_len un)) /\
    Safe (put w o (prepare ob (u_len un))) /\ frame_ok (put w o (prepare ob (u_len un))) (u, o) /\
    enter w u o = (w_frames (put w o (prepare ob (u_len un)))
                     (frames (put w o (prepare ob (u_len un))) ++ [(u, o)]), Done).
Proof.
  intros w u o S. unfold enter.
  destruct (nth_error (units w) u) as [ un | ] eqn:U; auto.
  destruct (nth_error (heap w) o) as [ ob | ] eqn:H; auto.
  destruct (Nat.eqb_spec (o_class ob) (u_class un)) as [ E | ]; auto.
  right. exists un, ob.
  destruct (s_unit _ S _ _ U) as (ci & A & B & D & Z & F).
  destruct (s_obj _ S _ _ H) as (ci' & A' & B' & SH & FZ).
  assert (ci' = ci) by congruence. subst ci'.
  destruct (prepare_keeps ob (u_len un) Z SH) as (K & SH' & T).
  split; [ reflexivity | ]. split; [ assumption | ]. split; [ eapply safe_put; eauto | ].
  split; [ | reflexivity ].
  exists un, (prepare ob (u_len un)). pose proof K as (K1 & K2 & K3 & K4).
  cbn [fst snd]. rewrite (heap_put_same _ _ _ _ H), K1, K2. repeat split; auto.
  - congruence.
  - intros AL. apply K3. apply FZ. rewrite D in AL.
    destruct (s_class _ S _ _ A) as (_ & X1 & X2 & _).
    destruct (c_single ci) eqn:SG; [ rewrite (X2 eq_refl) in AL; discriminate | ].
    rewrite (X1 eq_refl). unfold always_of. rewrite A. assumption.
  - rewrite names_put. unfold names_of. rewrite A'. apply (F ltac:(assumption) _ _ ltac:(eassumption)).
  - intros SE I. destruct (proj2 (F ltac:(assumption) _ _ ltac:(eassumption)) SE I) as (L & X & Y).
    destruct (T _ X) as (t & T1 & T2). exists t. split; auto. lia.
Qed.

Lemma frame_access_Some : forall w f k un o ob n i, frame_access w f k = Some (un, o, ob, n, i) ->
  exists u, nth_error (frames w) f = Some (u, o) /\ nth_error (units w) u = Some un /\
    nth_error (heap w) o = Some ob /\ nth_error (u_ivars un) k = Some (n, i).
Proof.
  intros w f k un o ob n i H. unfold frame_access in H.
  destruct (nth_error (frames w) f) as [ (u & o') | ] eqn:F; [ | discriminate ].
  destruct (nth_error (units w) u) as [ un' | ] eqn:U; [ | discriminate ].
  destruct (nth_error (heap w) o') as [ ob' | ] eqn:O; [ | discriminate ].
  destruct (nth_error (u_ivars un') k) as [ (n' & i') | ] eqn:I; [ | discriminate ].
  inversion H. subst. exists u. auto.
Qed.

Lemma frame_name_access : forall w f k, Safe w ->
  match frame_access w f k with
  | Some (un, o, ob, n, i) => frame_name w f k = Some (o, n)
  | None => frame_name w f k = None
  end.
Proof.
  intros w f k S. unfold frame_access, frame_name.
  destruct (nth_error (frames w) f) as [ (u & o) | ] eqn:F; auto.
  destruct (s_frame _ S _ _ F) as (un & ob & A & B & _). cbn in A, B. rewrite A, B.
  destruct (nth_error (u_ivars un) k) as [ (n & i) | ]; auto.
Qed.

(** What a compiled access knows. *)
Lemma frame_knows : forall w f k un o ob n i, Safe w -> frame_access w f k = Some (un, o, ob, n, i) ->
  u_object un = o_object ob /\ shape ob /\ nth_error (heap w) o = Some ob /\
  (u_always un = true -> o_frozen ob = true) /\
  (u_always un && negb (u_self un) = false ->
    nth_error (names_of w (o_class ob)) i = Some n /\
    (u_self un = true -> inlined (u_object un) i = false ->
        exists t, o_table ob = Some t /\ spill_index (u_object un) i < length (cells t))).
Proof.
  intros w f k un o ob n i S H. destruct (frame_access_Some _ _ _ _ _ _ _ _ H) as (u & A & B & C & D).
  destruct (s_frame _ S _ _ A) as (un' & ob' & A' & B' & E & F & G). cbn in A', B'.
  assert (un' = un) by congruence. assert (ob' = ob) by congruence. subst.
  destruct (s_obj _ S _ _ C) as (ci & _ & _ & SH & _).
  split; [ assumption | ]. split; [ assumption | ]. split; [ assumption | ]. split; [ assumption | ].
  intros K. apply (G K). eapply nth_error_In; eauto.
Qed.

Lemma frame_load_spec : forall w f k un o ob n i, Safe w -> frame_access w f k = Some (un, o, ob, n, i) ->
  frame_load w f k =
    (w, Ok (if u_always un && negb (u_self un) then r15 w else or_nil (get_by_id ob i))).
Proof.
  intros w f k un o ob n i S H. unfold frame_load. rewrite H.
  destruct (frame_knows _ _ _ _ _ _ _ _ S H) as (E & (SI & ST) & _ & _ & G).
  destruct (u_always un && negb (u_self un)) eqn:AL; auto.
  destruct (G eq_refl) as (N & T). clear G.
  rewrite get_slot. unfold slot. rewrite <- E.
  destruct (inlined (u_object un) i) eqn:I; auto.
  unfold load_heap. destruct (u_self un) eqn:SE; cbn [negb andb].
  - destruct (T eq_refl eq_refl) as (t & T1 & T2). rewrite T1.
    rewrite (nth_error_nth' _ None T2). reflexivity.
  - destruct (o_table ob) as [ t | ]; auto. cbn in ST. destruct ST as (CZ & _).
    destruct (Nat.eqb_spec (cap t) 0); [ congruence | ]. cbn [orb].
    destruct (Nat.leb_spec (length (cells t)) (spill_index (u_object un) i)) as [ L | L ].
    + rewrite nth_overflow by assumption. reflexivity.
    + rewrite (nth_error_nth' _ None L). reflexivity.
Qed.

Lemma frame_store_spec : forall w f k v un o ob n i, Safe w -> frame_access w f k = Some (un, o, ob, n, i) ->
  frame_store w f k v =
    (if o_frozen ob then (w, FrozenError) else (put w o (set_by_id ob i v), Ok v)).
Proof.
  intros w f k v un o ob n i S H. unfold frame_store. rewrite H.
  destruct (frame_knows _ _ _ _ _ _ _ _ S H) as (E & (SI & ST) & _ & FZ & G).
  destruct (o_frozen ob) eqn:FR; auto.
  assert (AL : u_always un = false) by (destruct (u_always un); auto; specialize (FZ eq_refl); discriminate).
  rewrite AL in G. destruct (G eq_refl) as (N & T). clear G.
  unfold set_by_id. rewrite <- E.
  destruct (inlined (u_object un) i) eqn:I; auto.
  assert (SB : set_by_id ob i v = o_set_table ob
    {| cap := cap (grown ob (spill_index (u_object un) i));
       cells := upd (cells (grown ob (spill_index (u_object un) i))) (spill_index (u_object un) i) (Some v) |}).
  { unfold set_by_id. rewrite <- E, I. reflexivity. }
  unfold store_heap. rewrite SB. unfold grown.
  destruct (u_self un) eqn:SE; cbn [negb andb].
  - destruct (T eq_refl eq_refl) as (t & T1 & T2). rewrite T1.
    apply Nat.ltb_lt in T2. rewrite T2. apply Nat.ltb_lt in T2.
    destruct (Nat.leb_spec (length (cells t)) (spill_index (u_object un) i)); [ lia | ]. reflexivity.
  - destruct (o_table ob) as [ t | ]; auto. cbn in ST. destruct ST as (CZ & _).
    destruct (Nat.eqb_spec (cap t) 0); [ congruence | ]. cbn [orb].
    destruct (Nat.leb_spec (length (cells t)) (spill_index (u_object un) i)) as [ L | L ]; auto.
    apply Nat.ltb_lt in L. rewrite L. reflexivity.
Qed.

(** ** Copies *)

Lemma clone_table_Some : forall ob, shape ob -> clone_table (o_table ob) = Some (o_table ob).
Proof.
  intros ob (_ & T). unfold clone_table. destruct (o_table ob) as [ t | ]; auto. cbn in T. destruct T.
  destruct (Nat.eqb_spec (cap t) 0); [ congruence | reflexivity ].
Qed.

Definition copy (w : world) (ob : obj) (fz : bool) : obj :=
  {| o_class := real_of w (o_class ob); o_object := o_object ob; o_inline := o_inline ob;
     o_table := o_table ob; o_frozen := fz || always_of w (real_of w (o_class ob)) |}.

Lemma copy_ok : forall w o ob fz, Safe w -> nth_error (heap w) o = Some ob -> obj_ok w (copy w ob fz).
Proof.
  intros w o ob fz S H. destruct (s_obj _ S _ _ H) as (ci & A & B & C & D).
  destruct (s_class _ S _ _ A) as (_ & _ & _ & (ri & R1 & R2 & R3)).
  destruct (s_class _ S _ _ R1) as (_ & X & _). specialize (X R2).
  assert (E : real_of w (o_class ob) = c_real ci) by (unfold real_of; rewrite A; reflexivity).
  exists ri. unfold copy. cbn [o_class o_object o_frozen]. rewrite E.
  split; [ assumption | ]. split; [ congruence | ]. split; [ exact C | ].
  rewrite X. intros ->. apply orb_true_r.
Qed.

Lemma dup_spec : forall w o ob, Safe w -> nth_error (heap w) o = Some ob ->
  dup w o = (w_heap w (heap w ++ [copy w ob false]), Made (length (heap w))).
Proof.
  intros w o ob S H. unfold dup. rewrite H.
  destruct (s_obj _ S _ _ H) as (ci & A & B & C & D). rewrite (clone_table_Some _ C). reflexivity.
Qed.

Lemma clone_spec : forall w o ob fz, Safe w -> nth_error (heap w) o = Some ob ->
  let w1 := w_heap w (heap w ++ [copy w ob (match fz with Some b => b | None => o_frozen ob end)]) in
  clone_ w o fz =
    (if real_of w (o_class ob) =? o_class ob then w1 else fst (get_singleton w1 (length (heap w))),
     Made (length (heap w))).
Proof.
  intros w o ob fz S H w1. unfold clone_. rewrite H.
  destruct (s_obj _ S _ _ H) as (ci & A & B & C & D). rewrite (clone_table_Some _ C). reflexivity.
Qed.

Lemma safe_singleton : forall w o, Safe w -> Safe (fst (get_singleton w o)).
Proof.
  intros w o S. destruct (get_singleton_cases w o) as [ [ -> | -> ] | (ob & ci & A & B & C & ->) ]; auto.
  cbn [fst]. apply safe_single; auto.
Qed.

(** ** Every step keeps the invariant and touches only what is there *)

Lemma step_safe : forall w e, Safe w -> compilable w e ->
  Safe (fst (step w e)) /\ snd (step w e) <> Crash.
Proof.
  intros w e S CP. destruct e; cbn [step].
  - (* NewClass *)
    split; [ | discriminate ]. apply safe_class; auto.
    + constructor.
    + discriminate.
  - (* New *)
    unfold alloc. destruct (nth_error (classes w) c) as [ ci | ] eqn:C; [ | split; [ assumption | discriminate ] ].
    destruct (c_single ci) eqn:SG; [ split; [ assumption | discriminate ] | ].
    split; [ | discriminate ]. apply safe_push; auto.
    destruct (s_class _ S _ _ C) as (ND & X1 & X2 & _).
    exists ci. cbn [o_class o_object o_frozen]. split; [ assumption | ]. split; [ reflexivity | ]. split.
    + split.
      * cbn [o_object o_inline]. intros ->. reflexivity.
      * cbn [o_table]. remember (if c_object ci then length (c_names ci) - INLINE else 0) as q.
        destruct (Nat.eqb_spec q 0); cbn [table_ok]; auto. cbn [with_capacity cap cells length].
        destruct (Nat.eqb_spec q 0); [ congruence | ]. split; [ apply npot_pos | lia ].
    + rewrite (X1 SG). unfold always_of. rewrite C. auto.
  - split; [ assumption | discriminate ].
  - split; [ assumption | discriminate ].
  - (* Set_ *)
    unfold set_ivar. destruct (nth_error (heap w) o) as [ ob | ] eqn:H; [ | split; [ assumption | discriminate ] ].
    destruct (o_frozen ob); [ split; [ assumption | discriminate ] | ].
    destruct (s_obj _ S _ _ H) as (ci & A & B & C & D).
    destruct (get_ivar_id w (o_class ob) n) as (w1 & i) eqn:G.
    destruct (get_ivar_id_spec _ _ _ _ _ S (ex_intro _ ci A) G) as (S1 & _).
    destruct (get_ivar_id_heap _ _ _ _ _ G) as (HP & _).
    destruct (set_keeps ob i v C) as (K & SH).
    split; [ | discriminate ]. apply (safe_put _ _ ob); auto. rewrite HP. assumption.
  - (* Remove *)
    unfold remove_ivar. destruct (nth_error (heap w) o) as [ ob | ] eqn:H; [ | split; [ assumption | discriminate ] ].
    destruct (o_frozen ob); [ split; [ assumption | discriminate ] | ].
    destruct (get_ivarid w (o_class ob) n) as [ i | ]; [ | split; [ assumption | discriminate ] ].
    destruct (get_by_id ob i); [ | split; [ assumption | discriminate ] ].
    destruct (s_obj _ S _ _ H) as (ci & A & B & C & D).
    destruct (remove_keeps ob i C) as (K & SH).
    split; [ | discriminate ]. apply (safe_put _ _ ob); auto.
  - split; [ assumption | discriminate ].
  - (* NewSite *)
    split; [ | discriminate ]. apply safe_sites; auto.
    intros s y K. apply nth_error_snoc in K. destruct K as [ K | (_ & ->) ]; [ exact (s_site _ S _ _ K) | exact I ].
  - (* LoadSite *)
    unfold load_site. destruct (nth_error (sites w) s) as [ (n & cache) | ] eqn:ST; [ | split; [ assumption | discriminate ] ].
    destruct (nth_error (heap w) o) as [ ob | ] eqn:H; [ | split; [ assumption | discriminate ] ].
    destruct (s_obj _ S _ _ H) as (ci & A & B & C & D).
    destruct (get_ivar_id w (o_class ob) n) as (w1 & i) eqn:G.
    destruct (get_ivar_id_spec _ _ _ _ _ S (ex_intro _ ci A) G) as (S1 & N1 & _).
    assert (S2 : Safe (w_sites w1 (upd (sites w1) s (n, Some (o_class ob, i))))).
    { apply safe_sites; auto. intros s' y K. destruct (Nat.eq_dec s s') as [ <- | NE ].
      - pose proof (nth_error_lt _ _ _ _ K) as L. rewrite upd_length in L.
        rewrite nth_error_upd_same in K by assumption. inversion K. subst. exact N1.
      - rewrite nth_error_upd_other in K by assumption. exact (s_site _ S1 _ _ K). }
    destruct cache as [ (c & j) | ].
    + destruct (o_class ob =? c); split; try assumption; discriminate.
    + split; [ assumption | discriminate ].
  - (* StoreSite *)
    unfold store_site. destruct (nth_error (sites w) s) as [ (n & cache) | ] eqn:ST; [ | split; [ assumption | discriminate ] ].
    destruct (nth_error (heap w) o) as [ ob | ] eqn:H; [ | split; [ assumption | discriminate ] ].
    destruct (o_frozen ob); [ split; [ assumption | discriminate ] | ].
    destruct (s_obj _ S _ _ H) as (ci & A & B & C & D).
    destruct (get_ivar_id w (o_class ob) n) as (w1 & i) eqn:G.
    destruct (get_ivar_id_spec _ _ _ _ _ S (ex_intro _ ci A) G) as (S1 & N1 & _).
    destruct (get_ivar_id_heap _ _ _ _ _ G) as (HP & _).
    assert (S2 : Safe (put (w_sites w1 (upd (sites w1) s (n, Some (o_class ob, i)))) o (set_by_id ob i v))).
    { destruct (set_keeps ob i v C) as (K & SH). apply (safe_put _ _ ob); auto; [ | cbn; rewrite HP; assumption ].
      apply safe_sites; auto. intros s' y K'. destruct (Nat.eq_dec s s') as [ <- | NE ].
      - pose proof (nth_error_lt _ _ _ _ K') as L. rewrite upd_length in L.
        rewrite nth_error_upd_same in K' by assumption. inversion K'. subst. exact N1.
      - rewrite nth_error_upd_other in K' by assumption. exact (s_site _ S1 _ _ K'). }
    destruct cache as [ (c & j) | ].
    + destruct (o_class ob =? c); split; try assumption; try discriminate.
      destruct (set_keeps ob j v C) as (K & SH). apply (safe_put _ _ ob); auto.
    + split; [ assumption | discriminate ].
  - (* Compile *)
    destruct (compile_cases w c self_ l S CP) as [ -> | (un & U & ->) ]; cbn [fst snd].
    + split; [ assumption | discriminate ].
    + split; [ apply safe_unit; auto | discriminate ].
  - (* Enter *)
    destruct (enter_cases w u o S) as [ -> | (un & ob & A & B & C & D & ->) ]; cbn [fst snd].
    + split; [ assumption | discriminate ].
    + split; [ apply safe_frame; auto | discriminate ].
  - (* FrameLoad *)
    destruct (frame_access w f k) as [ [ [ [ [ un o ] ob ] n ] i ] | ] eqn:FA.
    + rewrite (frame_load_spec _ _ _ _ _ _ _ _ S FA). split; [ assumption | discriminate ].
    + unfold frame_load. rewrite FA. split; [ assumption | discriminate ].
  - (* FrameStore *)
    destruct (frame_access w f k) as [ [ [ [ [ un o ] ob ] n ] i ] | ] eqn:FA.
    + rewrite (frame_store_spec _ _ _ v _ _ _ _ _ S FA).
      destruct (frame_knows _ _ _ _ _ _ _ _ S FA) as (_ & SH & H & _).
      destruct (o_frozen ob); [ split; [ assumption | discriminate ] | ].
      destruct (set_keeps ob i v SH) as (K & SH'). split; [ | discriminate ].
      apply (safe_put _ _ ob); auto.
    + unfold frame_store. rewrite FA. split; [ assumption | discriminate ].
  - (* Singleton *)
    split; [ apply safe_singleton; assumption | ].
    destruct (get_singleton_cases w o) as [ [ -> | -> ] | (ob & ci & A & B & C & ->) ]; discriminate.
  - (* Dup *)
    destruct (nth_error (heap w) o) as [ ob | ] eqn:H.
    + rewrite (dup_spec _ _ _ S H). split; [ | discriminate ]. apply safe_push; auto. eapply copy_ok; eauto.
    + unfold dup. rewrite H. split; [ assumption | discriminate ].
  - (* Clone *)
    destruct (nth_error (heap w) o) as [ ob | ] eqn:H.
    + rewrite (clone_spec _ _ _ fz S H). cbn [fst snd]. split; [ | discriminate ].
      match goal with |- Safe (if _ then ?w1 else _) => assert (S1 : Safe w1) end.
      { apply safe_push; auto. eapply copy_ok; eauto. }
      destruct (_ =? _); auto. apply safe_singleton. assumption.
    + unfold clone_. rewrite H. split; [ assumption | discriminate ].
  - (* Freeze *)
    destruct (nth_error (heap w) o) as [ ob | ] eqn:H; [ | split; [ assumption | discriminate ] ].
    split; [ | discriminate ]. destruct (s_obj _ S _ _ H) as (ci & A & B & C & D).
    apply (safe_put _ _ ob); auto.
    + repeat split; auto. intros t T. exists t. auto.
  - (* Scratch *)
    split; [ | discriminate ]. split; cbn.
    + exact (s_class _ S).
    + exact (s_obj _ S).
    + exact (s_site _ S).
    + exact (s_unit _ S).
    + exact (s_frame _ S).
Qed.

Lemma run_safe : forall es w, Safe w -> always_ compilable w es -> ~ In Crash (run w es).
Proof.
  induction es as [ | e t IH ]; intros w S A; cbn; auto.
  destruct A as (A1 & A2). destruct (step_safe w e S A1) as (S' & N).
  intros [ K | K ]; [ auto | ]. exact (IH _ S' A2 K).
Qed.

(** ** Lists of variables *)

Lemma afind_aset_same : forall l n v, afind (aset l n v) n = Some v.
Proof.
  induction l as [ | (m & x) t IH ]; cbn; intros n v.
  - rewrite String.eqb_refl. reflexivity.
  - destruct (String.eqb n m) eqn:E; cbn; rewrite E; auto.
Qed.

Lemma afind_aset_other : forall l n m v, n <> m -> afind (aset l n v) m = afind l m.
Proof.
  induction l as [ | (k & x) t IH ]; cbn; intros n m v D.
  - destruct (String.eqb_spec m n); [ congruence | reflexivity ].
  - destruct (String.eqb_spec n k) as [ -> | NE ]; cbn.
    + destruct (String.eqb_spec m k); [ congruence | reflexivity ].
    + destruct (String.eqb_spec m k); auto.
Qed.

Lemma afind_In : forall l n, afind l n <> None <-> In n (map fst l).
Proof.
  induction l as [ | (k & x) t IH ]; cbn; intros n.
  - intuition congruence.
  - destruct (String.eqb_spec n k) as [ -> | NE ].
    + split; auto. discriminate.
    + rewrite IH. split; auto. intros [ E | K ]; [ congruence | assumption ].
Qed.

Lemma aset_keys : forall l n v k, In k (map fst (aset l n v)) -> k = n \/ In k (map fst l).
Proof.
  induction l as [ | (m & x) t IH ]; cbn; intros n v k H.
  - destruct H as [ H | [] ]; auto.
  - destruct (String.eqb_spec n m) as [ -> | NE ]; cbn in H.
    + destruct H; auto.
    + destruct H as [ H | H ]; auto. destruct (IH _ _ _ H); auto.
Qed.

Lemma aset_nodup : forall l n v, NoDup (map fst l) -> NoDup (map fst (aset l n v)).
Proof.
  induction l as [ | (m & x) t IH ]; cbn; intros n v H.
  - repeat constructor. auto.
  - inversion H. subst. destruct (String.eqb_spec n m) as [ -> | NE ]; cbn; constructor; auto.
    intros K. apply aset_keys in K. destruct K; [ congruence | auto ].
Qed.

Lemma afind_aremove_same : forall l n, afind (aremove l n) n = None.
Proof.
  induction l as [ | (m & x) t IH ]; cbn; intros n; auto.
  destruct (String.eqb n m) eqn:E; cbn; [ apply IH | rewrite E; apply IH ].
Qed.

Lemma afind_aremove_other : forall l n m, n <> m -> afind (aremove l n) m = afind l m.
Proof.
  induction l as [ | (k & x) t IH ]; cbn; intros n m D; auto.
  destruct (String.eqb_spec n k) as [ -> | NE ]; cbn.
  - destruct (String.eqb_spec m k); [ congruence | ]. apply IH. assumption.
  - destruct (String.eqb_spec m k); auto. apply IH. assumption.
Qed.

Lemma aremove_nodup : forall l n, NoDup (map fst l) -> NoDup (map fst (aremove l n)).
Proof.
  induction l as [ | (k & x) t IH ]; cbn; intros n H; auto.
  apply NoDup_cons_iff in H. destruct H as (NI & ND). destruct (String.eqb n k); cbn; [ apply IH; assumption | ].
  constructor; [ | apply IH; assumption ].
  intros K. apply NI. apply in_map_iff in K. destruct K as (p & E & K).
  apply filter_In in K. apply in_map_iff. exists p. tauto.
Qed.

(** ** Slots and variables *)

(** A slot that is set has a name. *)
Definition Tight (w : world) : Prop :=
  forall o ob i v, nth_error (heap w) o = Some ob -> get_by_id ob i = Some v ->
    i < length (names_of w (o_class ob)).

Record Tells (w : world) (m : amem) : Prop := {
  t_len : length (heap w) = length m;
  t_obj : forall o ob x, nth_error (heap w) o = Some ob -> nth_error m o = Some x ->
    a_frozen x = o_frozen ob /\ a_const x = always_of w (real_of w (o_class ob)) /\
    NoDup (map fst (a_vars x)) /\ forall n, get_ivar w o n = afind (a_vars x) n }.

Lemma tells_start : Tells start [].
Proof. split; auto. intros [ | ] ob x H; discriminate H. Qed.

Lemma tight_start : Tight start.
Proof. intros [ | ] ob i v H; discriminate H. Qed.

Lemma tells_find : forall w m o n, Tells w m -> get_ivar w o n = afind (vars m o) n.
Proof.
  intros w m o n T. unfold vars. destruct (nth_error m o) as [ x | ] eqn:X.
  - destruct (nth_error (heap w) o) as [ ob | ] eqn:H.
    + apply (t_obj _ _ T _ _ _ H X).
    + apply nth_error_None in H. apply nth_error_lt in X. rewrite (t_len _ _ T) in H. lia.
  - unfold get_ivar. destruct (nth_error (heap w) o) as [ ob | ] eqn:H; auto.
    apply nth_error_None in X. apply nth_error_lt in H. rewrite (t_len _ _ T) in H. lia.
Qed.

Lemma tells_obj : forall w m o ob, Tells w m -> nth_error (heap w) o = Some ob ->
  exists x, nth_error m o = Some x.
Proof.
  intros w m o ob T H. apply nth_error_lt in H. rewrite (t_len _ _ T) in H.
  destruct (nth_error m o) eqn:E; eauto. apply nth_error_None in E. lia.
Qed.

Lemma tells_none : forall w m o, Tells w m -> nth_error (heap w) o = None -> nth_error m o = None.
Proof.
  intros w m o T H. apply nth_error_None in H. apply nth_error_None. rewrite <- (t_len _ _ T). assumption.
Qed.

(** Only classes and heap matter. *)
Lemma tells_same : forall w w' m, classes w' = classes w -> heap w' = heap w -> Tells w m -> Tells w' m.
Proof.
  intros w w' m C H T. split.
  - rewrite H. apply T.
  - intros o ob x A B. rewrite H in A. pose proof (t_obj _ _ T _ _ _ A B) as K.
    unfold get_ivar, get_ivarid, always_of, real_of, names_of in *. rewrite C, H. exact K.
Qed.

Lemma tight_same : forall w w', classes w' = classes w -> heap w' = heap w -> Tight w -> Tight w'.
Proof.
  intros w w' C H T o ob i v A B. unfold names_of. rewrite C. rewrite H in A. exact (T o ob i v A B).
Qed.

Lemma names_add : forall w c ci n d, nth_error (classes w) c = Some ci ->
  names_of (add_name w c n) d = if c =? d then names_of w d ++ [n] else names_of w d.
Proof.
  intros w c ci n d C. destruct (Nat.eqb_spec c d) as [ <- | D ].
  - destruct (add_name_same w c ci n C) as (ci' & A & N & _). unfold names_of. rewrite A, N, C. reflexivity.
  - unfold names_of. rewrite add_name_other by assumption. reflexivity.
Qed.

Lemma index_of_app : forall n l l', index_of n (l ++ l') =
  match index_of n l with
  | Some i => Some i
  | None => option_map (fun j => length l + j) (index_of n l')
  end.
Proof.
  induction l as [ | h t IH ]; cbn; intros l'.
  - destruct (index_of n l'); reflexivity.
  - destruct (String.eqb n h); auto. rewrite IH. destruct (index_of n t); cbn; auto.
    destruct (index_of n l'); reflexivity.
Qed.

Lemma get_ivar_add : forall w c n o m, Tight w -> get_ivar (add_name w c n) o m = get_ivar w o m.
Proof.
  intros w c n o m T. destruct (nth_error (classes w) c) as [ ci | ] eqn:C.
  - unfold get_ivar, get_ivarid. destruct (add_name_parts w c n) as (HP & _). rewrite HP.
    destruct (nth_error (heap w) o) as [ ob | ] eqn:H; auto.
    rewrite (names_add _ _ _ n (o_class ob) C). destruct (c =? o_class ob); auto.
    rewrite index_of_app. destruct (index_of m (names_of w (o_class ob))) as [ i | ] eqn:I; auto.
    cbn. destruct (String.eqb m n); cbn; auto. rewrite Nat.add_0_r.
    destruct (get_by_id ob (length (names_of w (o_class ob)))) eqn:G; auto.
    pose proof (T _ _ _ _ H G). lia.
  - unfold add_name. rewrite C. reflexivity.
Qed.

Lemma tight_add : forall w c n, Tight w -> Tight (add_name w c n).
Proof.
  intros w c n T o ob i v A B. destruct (add_name_parts w c n) as (HP & _). rewrite HP in A.
  pose proof (T _ _ _ _ A B) as L. destruct (nth_error (classes w) c) as [ ci | ] eqn:C.
  - rewrite (names_add _ _ _ _ _ C). destruct (_ =? _); auto. rewrite app_length. lia.
  - unfold add_name. rewrite C. assumption.
Qed.

Lemma real_ext : forall w w' c ci, ext w w' -> nth_error (classes w) c = Some ci -> real_of w' c = real_of w c.
Proof.
  intros w w' c ci E H. unfold real_of. rewrite H.
  destruct (e_ci _ _ E _ _ H) as (ci' & A & _ & R & _). rewrite A. assumption.
Qed.

Lemma const_ext : forall w w' o ob, Safe w -> ext w w' -> nth_error (heap w) o = Some ob ->
  always_of w' (real_of w' (o_class ob)) = always_of w (real_of w (o_class ob)).
Proof.
  intros w w' o ob S E H. destruct (s_obj _ S _ _ H) as (ci & A & _).
  rewrite (real_ext _ _ _ _ E A). destruct (s_class _ S _ _ A) as (_ & _ & _ & (ri & R & _)).
  apply (ext_always _ _ _ ri E). unfold real_of. rewrite A. assumption.
Qed.

Lemma tells_add : forall w m c n, Safe w -> Tight w -> Tells w m -> Tells (add_name w c n) m.
Proof.
  intros w m c n S TI T. destruct (add_name_parts w c n) as (HP & _). split.
  - rewrite HP. apply T.
  - intros o ob x A B. rewrite HP in A. destruct (t_obj _ _ T _ _ _ A B) as (X1 & X2 & X3 & X4).
    split; [ assumption | ]. split; [ rewrite (const_ext _ _ _ _ S (add_name_ext w c n) A); assumption | ].
    split; [ assumption | ]. intros k. rewrite get_ivar_add by assumption. apply X4.
Qed.

Lemma tells_id : forall w m c n w1 i, Safe w -> Tight w -> Tells w m -> get_ivar_id w c n = (w1, i) ->
  Tight w1 /\ Tells w1 m.
Proof.
  intros w m c n w1 i S TI T G. unfold get_ivar_id in G. destruct (get_ivarid w c n); inversion G; subst; auto.
  split; [ apply tight_add | apply tells_add ]; assumption.
Qed.

Lemma names_nodup : forall w c, Safe w -> NoDup (names_of w c).
Proof.
  intros w c S. unfold names_of. destruct (nth_error (classes w) c) as [ ci | ] eqn:C; [ | constructor ].
  apply (s_class _ S _ _ C).
Qed.

Lemma get_ivar_nth : forall w o ob i n, Safe w -> nth_error (heap w) o = Some ob ->
  nth_error (names_of w (o_class ob)) i = Some n -> get_ivar w o n = get_by_id ob i.
Proof.
  intros w o ob i n S H N. unfold get_ivar, get_ivarid. rewrite H.
  rewrite (index_of_nth n _ i (names_nodup _ _ S) N). reflexivity.
Qed.

(** *** A changed slot *)

Lemma tells_put : forall w m o ob ob' x x', Safe w -> Tells w m -> nth_error (heap w) o = Some ob ->
  nth_error m o = Some x -> o_class ob' = o_class ob ->
  a_frozen x' = o_frozen ob' -> a_const x' = a_const x -> NoDup (map fst (a_vars x')) ->
  (forall n, match index_of n (names_of w (o_class ob)) with
             | Some i => get_by_id ob' i | None => None end = afind (a_vars x') n) ->
  Tells (put w o ob') (upd m o x').
Proof.
  intros w m o ob ob' x x' S T H X K FZ CO ND V. split.
  - cbn. rewrite !upd_length. apply T.
  - intros j jb y A B. apply heap_put in A. destruct A as [ (-> & -> & _) | (NE & A) ].
    + rewrite nth_error_upd_same in B by (eapply nth_error_lt; eauto). inversion B. subst y.
      rewrite K. destruct (t_obj _ _ T _ _ _ H X) as (X1 & X2 & X3 & X4).
      split; [ assumption | ]. split; [ rewrite CO; exact X2 | ]. split; [ assumption | ].
      intros n. unfold get_ivar. rewrite (heap_put_same _ _ _ _ H). unfold get_ivarid. rewrite K, names_put. apply V.
    + rewrite nth_error_upd_other in B by auto. pose proof (t_obj _ _ T _ _ _ A B) as (X1 & X2 & X3 & X4).
      split; [ assumption | ]. split; [ exact X2 | ]. split; [ assumption | ].
      intros n. rewrite <- X4. unfold get_ivar. rewrite heap_put_other by auto. reflexivity.
Qed.

Lemma tight_put : forall w o ob ob', Tight w -> nth_error (heap w) o = Some ob -> o_class ob' = o_class ob ->
  (forall i v, get_by_id ob' i = Some v -> i < length (names_of w (o_class ob))) ->
  Tight (put w o ob').
Proof.
  intros w o ob ob' T H K L j jb i v A B. rewrite names_put.
  apply heap_put in A. destruct A as [ (-> & -> & _) | (_ & A) ].
  - rewrite K. eapply L; eauto.
  - exact (T _ _ _ _ A B).
Qed.

Lemma tells_set : forall w m o ob x i n v, Safe w -> Tight w -> Tells w m ->
  nth_error (heap w) o = Some ob -> nth_error m o = Some x -> o_frozen ob = false ->
  nth_error (names_of w (o_class ob)) i = Some n ->
  Tight (put w o (set_by_id ob i v)) /\
  Tells (put w o (set_by_id ob i v))
    (upd m o {| a_vars := aset (a_vars x) n v; a_frozen := false; a_const := a_const x |}).
Proof.
  intros w m o ob x i n v S TI T H X FR N.
  destruct (s_obj _ S _ _ H) as (ci & _ & _ & SH & _).
  destruct (set_keeps ob i v SH) as ((K1 & _ & _ & _) & _).
  assert (FZ : o_frozen (set_by_id ob i v) = false).
  { unfold set_by_id. destruct (inlined _ _); exact FR. }
  split.
  - apply (tight_put _ _ ob); auto. intros j y G. rewrite get_slot in G.
    destruct (Nat.eq_dec i j) as [ <- | D ].
    + eapply nth_error_lt; eauto.
    + rewrite set_slot_other in G by assumption. rewrite <- get_slot in G. exact (TI _ _ _ _ H G).
  - destruct (t_obj _ _ T _ _ _ H X) as (X1 & X2 & X3 & X4).
    apply (tells_put w m o ob _ x); auto.
    + cbn. apply aset_nodup. assumption.
    + intros k. cbn [a_vars]. destruct (String.eqb_spec n k) as [ <- | D ].
      * rewrite (index_of_nth n _ i (names_nodup _ _ S) N), get_slot, set_slot_same, afind_aset_same by assumption.
        reflexivity.
      * rewrite afind_aset_other by assumption. rewrite <- X4. unfold get_ivar, get_ivarid. rewrite H.
        destruct (index_of k (names_of w (o_class ob))) as [ j | ] eqn:J; auto.
        rewrite !get_slot. apply set_slot_other. intros ->. apply index_of_Some in J. congruence.
Qed.

Lemma tells_remove : forall w m o ob x i n, Safe w -> Tight w -> Tells w m ->
  nth_error (heap w) o = Some ob -> nth_error m o = Some x -> o_frozen ob = false ->
  nth_error (names_of w (o_class ob)) i = Some n ->
  Tight (put w o (remove_by_id ob i)) /\
  Tells (put w o (remove_by_id ob i))
    (upd m o {| a_vars := aremove (a_vars x) n; a_frozen := false; a_const := a_const x |}).
Proof.
  intros w m o ob x i n S TI T H X FR N.
  destruct (s_obj _ S _ _ H) as (ci & _ & _ & SH & _).
  destruct (remove_keeps ob i SH) as ((K1 & _ & _ & _) & _).
  assert (FZ : o_frozen (remove_by_id ob i) = false).
  { unfold remove_by_id. destruct (inlined _ _); [ exact FR | ]. destruct (o_table ob); auto. destruct (_ <? _); exact FR. }
  split.
  - apply (tight_put _ _ ob); auto. intros j y G. rewrite get_slot in G.
    destruct (Nat.eq_dec i j) as [ <- | D ].
    + eapply nth_error_lt; eauto.
    + rewrite remove_slot_other in G by assumption. rewrite <- get_slot in G. exact (TI _ _ _ _ H G).
  - destruct (t_obj _ _ T _ _ _ H X) as (X1 & X2 & X3 & X4).
    apply (tells_put w m o ob _ x); auto.
    + cbn. apply aremove_nodup. assumption.
    + intros k. cbn [a_vars]. destruct (String.eqb_spec n k) as [ <- | D ].
      * rewrite (index_of_nth n _ i (names_nodup _ _ S) N), get_slot, remove_slot_same, afind_aremove_same.
        reflexivity.
      * rewrite afind_aremove_other by assumption. rewrite <- X4. unfold get_ivar, get_ivarid. rewrite H.
        destruct (index_of k (names_of w (o_class ob))) as [ j | ] eqn:J; auto.
        rewrite !get_slot. apply remove_slot_other. intros ->. apply index_of_Some in J. congruence.
Qed.

(** A change of the object that leaves its slots as they are. *)
Lemma tells_quiet : forall w m o ob ob', Safe w -> Tight w -> Tells w m -> nth_error (heap w) o = Some ob ->
  o_class ob' = o_class ob -> o_frozen ob' = o_frozen ob -> (forall i, get_by_id ob' i = get_by_id ob i) ->
  Tight (put w o ob') /\ Tells (put w o ob') m.
Proof.
  intros w m o ob ob' S TI T H K F G. split.
  - apply (tight_put _ _ ob); auto. intros i v E. rewrite G in E. exact (TI _ _ _ _ H E).
  - destruct (tells_obj _ _ _ _ T H) as (x & X).
    destruct (t_obj _ _ T _ _ _ H X) as (X1 & X2 & X3 & X4).
    assert (E : upd m o x = m).
    { clear -X. revert o X. induction m as [ | h t IH ]; intros [ | o ] X; cbn in *; try congruence.
      f_equal. auto. }
    rewrite <- E. apply (tells_put w m o ob _ x); auto; [ congruence | ].
    intros n. rewrite <- X4. unfold get_ivar, get_ivarid. rewrite H.
    destruct (index_of n _); auto.
Qed.

(** *** New objects and classes *)

Lemma tells_ext_classes : forall w m ci, Safe w -> Tells w m -> Tells (w_classes w (classes w ++ [ci])) m.
Proof.
  intros w m ci S T. split; [ apply T | ].
  intros o ob x A B. cbn in A. destruct (t_obj _ _ T _ _ _ A B) as (X1 & X2 & X3 & X4).
  split; [ assumption | ]. split; [ rewrite (const_ext _ _ _ _ S (app_ext w ci) A); assumption | ].
  split; [ assumption | ]. intros n. rewrite <- X4. unfold get_ivar, get_ivarid. cbn [heap w_classes]. rewrite A.
  destruct (s_obj _ S _ _ A) as (di & D & _).
  unfold names_of. cbn [classes w_classes]. rewrite (nth_error_app_Some _ _ _ _ _ D), D. reflexivity.
Qed.

Lemma tight_ext_classes : forall w ci, Safe w -> Tight w -> Tight (w_classes w (classes w ++ [ci])).
Proof.
  intros w ci S T o ob i v A B. cbn in A. pose proof (T _ _ _ _ A B) as L.
  destruct (s_obj _ S _ _ A) as (di & D & _).
  unfold names_of in *. cbn [classes w_classes]. rewrite (nth_error_app_Some _ _ _ _ _ D). rewrite D in L. exact L.
Qed.

Lemma tells_push : forall w m ob x, Tells w m ->
  a_frozen x = o_frozen ob -> a_const x = always_of w (real_of w (o_class ob)) ->
  NoDup (map fst (a_vars x)) ->
  (forall n, match index_of n (names_of w (o_class ob)) with
             | Some i => get_by_id ob i | None => None end = afind (a_vars x) n) ->
  Tells (w_heap w (heap w ++ [ob])) (m ++ [x]).
Proof.
  intros w m ob x T A B C D. split.
  - cbn. rewrite !app_length, (t_len _ _ T). reflexivity.
  - intros o oo y H Y. cbn in H. apply nth_error_snoc in H.
    destruct H as [ H | (-> & ->) ].
    + pose proof (nth_error_lt _ _ _ _ H) as L. rewrite (t_len _ _ T) in L.
      rewrite nth_error_app1 in Y by assumption.
      destruct (t_obj _ _ T _ _ _ H Y) as (X1 & X2 & X3 & X4).
      split; [ assumption | ]. split; [ exact X2 | ]. split; [ assumption | ].
      intros n. rewrite <- X4. unfold get_ivar. cbn [heap w_heap].
      rewrite (nth_error_app_Some _ _ _ _ _ H), H. reflexivity.
    + rewrite (t_len _ _ T), nth_error_last in Y. inversion Y. subst y.
      split; [ assumption | ]. split; [ exact B | ]. split; [ assumption | ].
      intros n. unfold get_ivar. cbn [heap w_heap]. rewrite nth_error_last. apply D.
Qed.

Lemma tight_push : forall w ob, Tight w -> (forall i v, get_by_id ob i = Some v -> i < length (names_of w (o_class ob))) ->
  Tight (w_heap w (heap w ++ [ob])).
Proof.
  intros w ob T L o oo i v A B. cbn in A. apply nth_error_snoc in A. destruct A as [ A | (_ & ->) ].
  - exact (T _ _ _ _ A B).
  - exact (L _ _ B).
Qed.

Lemma tells_singleton : forall w m o, Safe w -> Tight w -> Tells w m ->
  Tight (fst (get_singleton w o)) /\ Tells (fst (get_singleton w o)) m.
Proof.
  intros w m o S TI T.
  destruct (get_singleton_cases w o) as [ [ -> | -> ] | (ob & ci & A & B & C & ->) ]; auto.
  cbn [fst]. set (w1 := w_classes w (classes w ++ [single_of ci (o_class ob)])).
  assert (TI1 : Tight w1) by (apply tight_ext_classes; assumption).
  assert (T1 : Tells w1 m) by (apply tells_ext_classes; assumption).
  assert (A1 : nth_error (heap w1) o = Some ob) by exact A.
  assert (NC : nth_error (classes w1) (length (classes w)) = Some (single_of ci (o_class ob)))
    by (cbn; apply nth_error_last).
  assert (C1 : nth_error (classes w1) (o_class ob) = Some ci) by (cbn; apply nth_error_app_Some; exact B).
  assert (NN : names_of w1 (length (classes w)) = names_of w1 (o_class ob)).
  { unfold names_of. rewrite NC, C1. reflexivity. }
  destruct (s_class _ S _ _ B) as (_ & RL & _ & _). specialize (RL C).
  split.
  - intros j jb i v J G. rewrite names_put. apply heap_put in J. destruct J as [ (-> & -> & _) | (_ & J) ].
    + cbn [o_set_class o_class]. rewrite NN. exact (TI1 _ _ _ _ A1 G).
    + exact (TI1 _ _ _ _ J G).
  - split.
    + cbn. rewrite upd_length. apply T.
    + intros j jb x J X. apply heap_put in J. destruct J as [ (-> & -> & _) | (NE & J) ].
      * destruct (t_obj _ _ T1 _ _ _ A1 X) as (X1 & X2 & X3 & X4).
        split; [ exact X1 | ]. split.
        -- rewrite X2. cbn [o_set_class o_class]. unfold real_of, put. cbn [classes w_heap].
           rewrite NC, C1. cbn [single_of c_real]. rewrite RL. reflexivity.
        -- split; [ assumption | ]. intros n. rewrite <- X4. unfold get_ivar, get_ivarid.
           rewrite (heap_put_same _ _ _ _ A1), A1. cbn [o_set_class o_class]. rewrite names_put, NN. reflexivity.
      * destruct (t_obj _ _ T1 _ _ _ J X) as (X1 & X2 & X3 & X4).
        split; [ exact X1 | ]. split; [ exact X2 | ]. split; [ assumption | ].
        intros n. rewrite <- X4. unfold get_ivar. rewrite heap_put_other by auto. reflexivity.
Qed.

(** *** Copies *)

Lemma tells_copy : forall w m o ob x fz, Safe w -> Tight w -> Tells w m -> layout_ok w o ->
  nth_error (heap w) o = Some ob -> nth_error m o = Some x ->
  Tight (w_heap w (heap w ++ [copy w ob fz])) /\
  Tells (w_heap w (heap w ++ [copy w ob fz]))
    (m ++ [{| a_vars := a_vars x; a_frozen := fz || a_const x; a_const := a_const x |}]).
Proof.
  intros w m o ob x fz S TI T LO H X. specialize (LO _ H).
  destruct (t_obj _ _ T _ _ _ H X) as (X1 & X2 & X3 & X4).
  assert (RR : real_of w (real_of w (o_class ob)) = real_of w (o_class ob)).
  { destruct (s_obj _ S _ _ H) as (ci & A & _).
    destruct (s_class _ S _ _ A) as (_ & _ & _ & (ri & R1 & R2 & _)).
    destruct (s_class _ S _ _ R1) as (_ & Q & _). unfold real_of. rewrite A, R1. auto. }
  assert (G : forall i, get_by_id (copy w ob fz) i = get_by_id ob i) by reflexivity.
  split.
  - apply tight_push; auto. intros i v E. rewrite G in E. cbn [copy o_class].
    pose proof (TI _ _ _ _ H E) as L. specialize (LO _ _ E).
    apply nth_error_Some. rewrite <- LO. apply nth_error_Some. assumption.
  - apply tells_push; auto.
    + cbn [a_frozen copy o_frozen]. rewrite X2. reflexivity.
    + cbn [a_const copy o_class]. rewrite RR. exact X2.
    + intros n. cbn [a_vars copy o_class]. rewrite <- X4. unfold get_ivar, get_ivarid. rewrite H.
      destruct (index_of n (names_of w (o_class ob))) as [ j | ] eqn:J.
      * pose proof (index_of_Some _ _ _ J) as J'.
        destruct (get_by_id ob j) as [ v | ] eqn:E.
        -- pose proof (LO _ _ E) as L. rewrite J' in L. symmetry in L.
           rewrite (index_of_nth _ _ _ (names_nodup _ _ S) L). exact E.
        -- destruct (index_of n (names_of w (real_of w (o_class ob)))) as [ k | ] eqn:Q; auto.
           rewrite G. destruct (get_by_id ob k) as [ v | ] eqn:E'; auto.
           pose proof (LO _ _ E') as L. apply index_of_Some in Q. rewrite Q in L.
           rewrite (index_of_nth _ _ _ (names_nodup _ _ S) L) in J. congruence.
      * destruct (index_of n (names_of w (real_of w (o_class ob)))) as [ k | ] eqn:Q; auto.
        rewrite G. destruct (get_by_id ob k) as [ v | ] eqn:E'; auto.
        pose proof (LO _ _ E') as L. apply index_of_Some in Q. rewrite Q in L.
        rewrite (index_of_nth _ _ _ (names_nodup _ _ S) L) in J. congruence.
Qed.

(** *** Lists of names *)

Lemma named_slots_In : forall ob l i n, In n (named_slots ob i l) <->
  exists j, nth_error l j = Some n /\ get_by_id ob (i + j) <> None.
Proof.
  induction l as [ | h t IH ]; cbn [named_slots]; intros i n.
  - split; [ intros [] | intros ([ | j ] & A & _); discriminate A ].
  - assert (Q : In n (named_slots ob (S i) t) <-> exists j, nth_error (h :: t) (S j) = Some n /\ get_by_id ob (i + S j) <> None).
    { rewrite IH. split; intros (j & A & B); exists j; replace (i + S j) with (S i + j) in * by lia; auto. }
    destruct (get_by_id ob i) as [ v | ] eqn:E.
    + cbn [In]. rewrite Q. split.
      * intros [ -> | (j & A & B) ]; [ exists 0; rewrite Nat.add_0_r, E; split; auto; discriminate | exists (S j); auto ].
      * intros ([ | j ] & A & B); [ left; cbn in A; congruence | right; exists j; auto ].
    + rewrite Q. split.
      * intros (j & A & B). exists (S j). auto.
      * intros ([ | j ] & A & B); [ rewrite Nat.add_0_r in B; congruence | exists j; auto ].
Qed.

Lemma named_slots_nodup : forall ob l i, NoDup l -> NoDup (named_slots ob i l).
Proof.
  induction l as [ | h t IH ]; cbn; intros i ND; auto. inversion ND. subst.
  destruct (get_by_id ob i); auto. constructor; auto.
  intros K. apply named_slots_In in K. destruct K as (j & A & _). apply nth_error_In in A. auto.
Qed.

Lemma filter_perm : forall A (f : A -> bool) l l', Permutation l l' -> Permutation (filter f l) (filter f l').
Proof.
  intros A f l l' P. induction P; cbn; auto.
  - destruct (f x); auto.
  - destruct (f x), (f y); auto. constructor.
  - etransitivity; eauto.
Qed.

Lemma tells_list : forall w m o, Safe w -> Tells w m ->
  Permutation (get_ivars w o) (filter (fun n => negb (hidden n)) (map fst (vars m o))).
Proof.
  intros w m o S T. unfold get_ivars, vars.
  destruct (nth_error (heap w) o) as [ ob | ] eqn:H.
  - destruct (tells_obj _ _ _ _ T H) as (x & X). rewrite X.
    destruct (t_obj _ _ T _ _ _ H X) as (X1 & X2 & X3 & X4).
    apply filter_perm. apply NoDup_Permutation; auto.
    + apply named_slots_nodup. apply names_nodup. assumption.
    + intros n. rewrite named_slots_In, <- afind_In, <- X4. split.
      * intros (j & A & B). rewrite (get_ivar_nth _ _ _ _ _ S H A). exact B.
      * intros G. unfold get_ivar in G. rewrite H in G. unfold get_ivarid in G.
        destruct (index_of n (names_of w (o_class ob))) as [ j | ] eqn:J; [ | congruence ].
        exists j. split; [ apply index_of_Some; assumption | exact G ].
  - rewrite (tells_none _ _ _ T H). constructor.
Qed.

(** ** One step *)

Lemma same_refl : forall r, same r r.
Proof. intros []; cbn; auto. Qed.

Lemma step_tells : forall w m e, Safe w -> Tight w -> Tells w m -> fine w e ->
  Tight (fst (step w e)) /\ Tells (fst (step w e)) (fst (asks m (action w e))) /\
  same (snd (step w e)) (snd (asks m (action w e))).
Proof.
  intros w m e S TI T (CP & NA & CO). destruct e; cbn [step action asks fst snd].
  - (* NewClass *)
    split; [ apply tight_ext_classes; assumption | ]. split; [ apply tells_ext_classes; assumption | reflexivity ].
  - (* New *)
    unfold alloc. destruct (nth_error (classes w) c) as [ ci | ] eqn:C; [ | split; [ | split ]; auto; reflexivity ].
    destruct (c_single ci) eqn:SG; [ split; [ | split ]; auto; exact I | ].
    destruct (s_class _ S _ _ C) as (_ & RL & _). specialize (RL SG).
    cbn [fst snd asks].
    set (ob := {| o_class := c; o_object := c_object ci;
         o_inline := if c_object ci then repeat None INLINE else [];
         o_table := if (if c_object ci then length (c_names ci) - INLINE else 0) =? 0 then None
                    else Some (with_capacity (if c_object ci then length (c_names ci) - INLINE else 0));
         o_frozen := c_always ci |}).
    assert (G : forall i, get_by_id ob i = None).
    { intros i. rewrite get_slot. unfold slot, ob. cbn [o_object o_inline o_table].
      destruct (inlined (c_object ci) i) eqn:IN.
      - unfold inlined in IN. apply andb_true_iff in IN. destruct IN as (-> & _). apply nth_repeat.
      - destruct (_ =? 0); auto. cbn. destruct (spill_index _ _); reflexivity. }
    split; [ | split ].
    + apply tight_push; auto. intros i v E. rewrite G in E. discriminate.
    + apply tells_push; auto.
      * cbn [a_const ob o_class]. unfold always_of, real_of. rewrite C, RL, C. reflexivity.
      * constructor.
      * intros n. cbn [a_vars afind]. destruct (index_of n _); auto.
    + cbn. f_equal. apply T.
  - (* Get *)
    split; [ | split ]; auto. cbn. rewrite (tells_find _ _ _ _ T). reflexivity.
  - (* Defined *)
    split; [ | split ]; auto. cbn. rewrite (tells_find _ _ _ _ T). reflexivity.
  - (* Set_ *)
    unfold set_ivar. destruct (nth_error (heap w) o) as [ ob | ] eqn:H.
    + destruct (tells_obj _ _ _ _ T H) as (x & X). rewrite X.
      destruct (t_obj _ _ T _ _ _ H X) as (X1 & _). rewrite X1.
      destruct (o_frozen ob) eqn:FR; [ split; [ | split ]; auto; reflexivity | ].
      destruct (s_obj _ S _ _ H) as (ci & A & B & C & D).
      destruct (get_ivar_id w (o_class ob) n) as (w1 & i) eqn:G.
      destruct (get_ivar_id_spec _ _ _ _ _ S (ex_intro _ ci A) G) as (S1 & N1 & _).
      destruct (get_ivar_id_heap _ _ _ _ _ G) as (HP & _).
      destruct (tells_id _ _ _ _ _ _ S TI T G) as (TI1 & T1).
      assert (H1 : nth_error (heap w1) o = Some ob) by (rewrite HP; assumption).
      destruct (tells_set w1 m o ob x i n v S1 TI1 T1 H1 X FR N1) as (Q1 & Q2).
      cbn [fst snd]. split; [ | split ]; auto. reflexivity.
    + rewrite (tells_none _ _ _ T H). split; [ | split ]; auto; reflexivity.
  - (* Remove *)
    unfold remove_ivar. destruct (nth_error (heap w) o) as [ ob | ] eqn:H.
    + destruct (tells_obj _ _ _ _ T H) as (x & X). rewrite X.
      destruct (t_obj _ _ T _ _ _ H X) as (X1 & _ & _ & X4). rewrite X1.
      destruct (o_frozen ob) eqn:FR; [ split; [ | split ]; auto; reflexivity | ].
      specialize (X4 n). unfold get_ivar in X4. rewrite H in X4.
      destruct (get_ivarid w (o_class ob) n) as [ i | ] eqn:I.
      * rewrite <- X4. destruct (get_by_id ob i) as [ v | ] eqn:G; [ | split; [ | split ]; auto; reflexivity ].
        apply index_of_Some in I.
        destruct (tells_remove w m o ob x i n S TI T H X FR I) as (Q1 & Q2).
        cbn [fst snd]. split; [ | split ]; auto. reflexivity.
      * rewrite <- X4. split; [ | split ]; auto; reflexivity.
    + rewrite (tells_none _ _ _ T H). split; [ | split ]; auto; reflexivity.
  - (* List_ *)
    split; [ | split ]; auto. apply tells_list; assumption.
  - (* NewSite *)
    split; [ exact TI | ]. split; [ | reflexivity ]. apply (tells_same w); auto.
  - (* LoadSite *)
    unfold load_site. destruct (nth_error (sites w) s) as [ (n & cache) | ] eqn:ST; [ | split; [ | split ]; auto; reflexivity ].
    cbn [asks fst snd].
    destruct (nth_error (heap w) o) as [ ob | ] eqn:H.
    + destruct (s_obj _ S _ _ H) as (ci & A & B & C & D).
      destruct (get_ivar_id w (o_class ob) n) as (w1 & i) eqn:G.
      destruct (get_ivar_id_spec _ _ _ _ _ S (ex_intro _ ci A) G) as (S1 & N1 & _).
      destruct (get_ivar_id_heap _ _ _ _ _ G) as (HP & _).
      destruct (tells_id _ _ _ _ _ _ S TI T G) as (TI1 & T1).
      assert (H1 : nth_error (heap w1) o = Some ob) by (rewrite HP; assumption).
      assert (V : Ok (or_nil (get_by_id ob i)) = Ok (or_nil (afind (vars m o) n))).
      { rewrite <- (tells_find _ _ _ _ T1), (get_ivar_nth _ _ _ _ _ S1 H1 N1). reflexivity. }
      assert (MISS : Tight (w_sites w1 (upd (sites w1) s (n, Some (o_class ob, i)))) /\
                     Tells (w_sites w1 (upd (sites w1) s (n, Some (o_class ob, i)))) m /\
                     same (Ok (or_nil (get_by_id ob i))) (Ok (or_nil (afind (vars m o) n)))).
      { split; [ exact TI1 | ]. split; [ apply (tells_same w1); auto | exact V ]. }
      destruct cache as [ (c & j) | ]; [ | exact MISS ].
      destruct (Nat.eqb_spec (o_class ob) c) as [ <- | NE ]; [ | exact MISS ].
      pose proof (s_site _ S _ _ ST) as K. cbn in K.
      split; [ | split ]; auto. cbn. rewrite <- (tells_find _ _ _ _ T), (get_ivar_nth _ _ _ _ _ S H K). reflexivity.
    + split; [ | split ]; auto. cbn. rewrite <- (tells_find _ _ _ _ T). unfold get_ivar. rewrite H. reflexivity.
  - (* StoreSite *)
    unfold store_site. destruct (nth_error (sites w) s) as [ (n & cache) | ] eqn:ST; [ | split; [ | split ]; auto; reflexivity ].
    cbn [asks].
    destruct (nth_error (heap w) o) as [ ob | ] eqn:H.
    + destruct (tells_obj _ _ _ _ T H) as (x & X). rewrite X.
      destruct (t_obj _ _ T _ _ _ H X) as (X1 & _). rewrite X1.
      destruct (o_frozen ob) eqn:FR; [ split; [ | split ]; auto; reflexivity | ].
      destruct (s_obj _ S _ _ H) as (ci & A & B & C & D).
      destruct (get_ivar_id w (o_class ob) n) as (w1 & i) eqn:G.
      destruct (get_ivar_id_spec _ _ _ _ _ S (ex_intro _ ci A) G) as (S1 & N1 & _).
      destruct (get_ivar_id_heap _ _ _ _ _ G) as (HP & _).
      destruct (tells_id _ _ _ _ _ _ S TI T G) as (TI1 & T1).
      assert (H1 : nth_error (heap w1) o = Some ob) by (rewrite HP; assumption).
      destruct (tells_set w1 m o ob x i n v S1 TI1 T1 H1 X FR N1) as (Q1 & Q2).
      cbn [fst snd].
      destruct cache as [ (c & j) | ]; [ destruct (Nat.eqb_spec (o_class ob) c) as [ <- | NE ] | ].
      * pose proof (s_site _ S _ _ ST) as K. cbn in K.
        destruct (tells_set w m o ob x j n v S TI T H X FR K) as (R1 & R2).
        cbn [fst snd]. split; [ | split ]; auto. reflexivity.
      * split; [ exact Q1 | ]. split; [ | reflexivity ].
        apply (tells_same (put w1 o (set_by_id ob i v))); auto.
      * split; [ exact Q1 | ]. split; [ | reflexivity ].
        apply (tells_same (put w1 o (set_by_id ob i v))); auto.
    + rewrite (tells_none _ _ _ T H). split; [ | split ]; auto; reflexivity.
  - (* Compile *)
    destruct (compile_cases w c self_ l S CP) as [ -> | (un & U & ->) ]; cbn [fst snd].
    + split; [ | split ]; auto. reflexivity.
    + split; [ exact TI | ]. split; [ | reflexivity ]. apply (tells_same w); auto.
  - (* Enter *)
    destruct (enter_cases w u o S) as [ -> | (un & ob & A & B & C & D & ->) ]; cbn [fst snd].
    + split; [ | split ]; auto. reflexivity.
    + assert (FR : o_frozen (prepare ob (u_len un)) = o_frozen ob).
      { unfold prepare, extend. destruct (u_len un); auto. destruct (o_table ob); auto. destruct (_ || _); reflexivity. }
      destruct (tells_quiet w m o ob (prepare ob (u_len un)) S TI T A (proj1 B) FR) as (Q1 & Q2).
      { intros i. rewrite !get_slot. apply prepare_slot. }
      split; [ exact Q1 | ]. split; [ | reflexivity ].
      apply (tells_same (put w o (prepare ob (u_len un)))); auto.
  - (* FrameLoad *)
    pose proof (frame_name_access w f k S) as FN.
    destruct (frame_access w f k) as [ [ [ [ [ un o ] ob ] n ] i ] | ] eqn:FA.
    + rewrite FN, (frame_load_spec _ _ _ _ _ _ _ _ S FA). cbn [asks fst snd].
      destruct (frame_access_Some _ _ _ _ _ _ _ _ FA) as (u & F1 & F2 & F3 & F4).
      pose proof (NA _ _ _ F1 F2) as AL.
      destruct (frame_knows _ _ _ _ _ _ _ _ S FA) as (_ & _ & H & _ & G). rewrite AL in G |- *.
      destruct (G eq_refl) as (N & _). split; [ | split ]; auto. cbn.
      rewrite <- (tells_find _ _ _ _ T), (get_ivar_nth _ _ _ _ _ S H N). reflexivity.
    + rewrite FN. unfold frame_load. rewrite FA. split; [ | split ]; auto. reflexivity.
  - (* FrameStore *)
    pose proof (frame_name_access w f k S) as FN.
    destruct (frame_access w f k) as [ [ [ [ [ un o ] ob ] n ] i ] | ] eqn:FA.
    + rewrite FN, (frame_store_spec _ _ _ v _ _ _ _ _ S FA). cbn [asks].
      destruct (frame_knows _ _ _ _ _ _ _ _ S FA) as (_ & _ & H & FZ & G).
      destruct (tells_obj _ _ _ _ T H) as (x & X). rewrite X.
      destruct (t_obj _ _ T _ _ _ H X) as (X1 & _). rewrite X1.
      destruct (o_frozen ob) eqn:FR; [ split; [ | split ]; auto; reflexivity | ].
      assert (AL : u_always un = false) by (destruct (u_always un); auto; specialize (FZ eq_refl); discriminate).
      rewrite AL in G. destruct (G eq_refl) as (N & _).
      destruct (tells_set w m o ob x i n v S TI T H X FR N) as (R1 & R2).
      cbn [fst snd]. split; [ | split ]; auto. reflexivity.
    + rewrite FN. unfold frame_store. rewrite FA. split; [ | split ]; auto. reflexivity.
  - (* Singleton *)
    destruct (tells_singleton w m o S TI T) as (Q1 & Q2). split; [ exact Q1 | ]. split; [ exact Q2 | ].
    destruct (get_singleton_cases w o) as [ [ -> | -> ] | (ob & ci & A & B & C & ->) ]; cbn; auto.
  - (* Dup *)
    destruct (nth_error (heap w) o) as [ ob | ] eqn:H.
    + destruct (tells_obj _ _ _ _ T H) as (x & X). rewrite (dup_spec _ _ _ S H), X. cbn [fst snd].
      destruct (tells_copy w m o ob x false S TI T CO H X) as (Q1 & Q2).
      split; [ exact Q1 | ]. split; [ exact Q2 | ]. cbn. f_equal. apply T.
    + rewrite (tells_none _ _ _ T H). unfold dup. rewrite H. split; [ | split ]; auto. reflexivity.
  - (* Clone *)
    destruct (nth_error (heap w) o) as [ ob | ] eqn:H.
    + destruct (tells_obj _ _ _ _ T H) as (x & X). rewrite (clone_spec _ _ _ fz S H), X. cbn [fst snd].
      destruct (t_obj _ _ T _ _ _ H X) as (X1 & _). rewrite X1.
      destruct (tells_copy w m o ob x (match fz with Some b => b | None => o_frozen ob end) S TI T CO H X) as (Q1 & Q2).
      match type of Q1 with Tight ?w1 => assert (S1 : Safe w1) by (apply safe_push; auto; eapply copy_ok; eauto) end.
      destruct (tells_singleton _ _ (length (heap w)) S1 Q1 Q2) as (R1 & R2).
      destruct (real_of w (o_class ob) =? o_class ob).
      * split; [ exact Q1 | ]. split; [ exact Q2 | ]. cbn. f_equal. apply T.
      * split; [ exact R1 | ]. split; [ exact R2 | ]. cbn. f_equal. apply T.
    + rewrite (tells_none _ _ _ T H). unfold clone_. rewrite H. split; [ | split ]; auto. reflexivity.
  - (* Freeze *)
    destruct (nth_error (heap w) o) as [ ob | ] eqn:H.
    + destruct (tells_obj _ _ _ _ T H) as (x & X). rewrite X. cbn [fst snd].
      destruct (t_obj _ _ T _ _ _ H X) as (X1 & X2 & X3 & X4).
      split; [ | split; [ | reflexivity ] ].
      * apply (tight_put _ _ ob); auto. intros i v G. exact (TI _ _ _ _ H G).
      * apply (tells_put w m o ob _ x); auto. intros n. rewrite <- X4. unfold get_ivar, get_ivarid. rewrite H. reflexivity.
    + rewrite (tells_none _ _ _ T H). split; [ | split ]; auto. reflexivity.
  - (* Scratch *)
    split; [ exact TI | ]. split; [ | reflexivity ]. apply (tells_same w); auto.
Qed.

Lemma run_tells : forall es w m, Safe w -> Tight w -> Tells w m -> always_ fine w es ->
  Forall2 same (run w es) (answers m (actions w es)).
Proof.
  induction es as [ | e t IH ]; intros w m S TI T A; cbn; [ constructor | ].
  destruct A as (A1 & A2). destruct (step_tells w m e S TI T A1) as (B1 & B2 & B3).
  constructor; auto. apply IH; auto. apply (step_safe w e S). apply A1.
Qed.

Lemma plain_layout : forall w e, plain_copies w e -> copies_ok w e.
Proof.
  intros w [] P; cbn in *; auto; intros ob H i v G; rewrite (P ob H); reflexivity.
Qed.

Lemma plain_fine : forall es w, always_ (fun w e => compilable w e /\ not_always w e /\ plain_copies w e) w es ->
  always_ fine w es.
Proof.
  induction es as [ | e t IH ]; cbn; intros w A; auto. destruct A as ((A1 & A2 & A3) & A4).
  split; auto. split; [ assumption | ]. split; [ assumption | ]. apply plain_layout. assumption.
Qed.

Lemma reads_back : forall es, always_ fine start es ->
  Forall2 same (run start es) (answers [] (actions start es)).
Proof. intros es A. apply run_tells; auto using safe_start, tight_start, tells_start. Qed.

Lemma plain_reads_back : forall es,
  always_ (fun w e => compilable w e /\ not_always w e /\ plain_copies w e) start es ->
  Forall2 same (run start es) (answers [] (actions start es)).
Proof. intros es A. apply reads_back. apply plain_fine. assumption. Qed.

Lemma never_outside : forall es, always_ compilable start es -> ~ In Crash (run start es).
Proof. intros es A. apply run_safe; auto using safe_start. Qed.

(** ** Copies, by the code's own reading *)

Lemma after_safe : forall es w, Safe w -> always_ compilable w es -> Safe (after w es).
Proof.
  induction es as [ | e t IH ]; cbn; intros w S A; auto. destruct A as (A1 & A2).
  apply IH; auto. apply (step_safe w e S A1).
Qed.

Lemma get_ivar_push : forall w ob j n, j < length (heap w) ->
  get_ivar (w_heap w (heap w ++ [ob])) j n = get_ivar w j n.
Proof. intros w ob j n L. unfold get_ivar. cbn [heap w_heap]. rewrite nth_error_app1 by assumption. reflexivity. Qed.

Lemma get_ivar_singleton : forall w o j n, Safe w -> get_ivar (fst (get_singleton w o)) j n = get_ivar w j n.
Proof.
  intros w o j n S.
  destruct (get_singleton_cases w o) as [ [ -> | -> ] | (ob & ci & A & B & C & ->) ]; auto. cbn [fst].
  unfold get_ivar, get_ivarid. cbn [put heap w_heap w_classes].
  destruct (Nat.eq_dec o j) as [ <- | D ].
  - rewrite nth_error_upd_same by (eapply nth_error_lt; eauto). rewrite A. cbn [o_set_class o_class].
    unfold names_of. cbn [classes put w_heap w_classes]. rewrite nth_error_last, B. reflexivity.
  - rewrite nth_error_upd_other by assumption. destruct (nth_error (heap w) j) as [ jb | ] eqn:J; auto.
    destruct (s_obj _ S _ _ J) as (di & E & _). unfold names_of. cbn [classes put w_heap w_classes].
    rewrite (nth_error_app_Some _ _ _ _ _ E), E. reflexivity.
Qed.

Lemma get_ivar_copy : forall w o ob fz n, Safe w -> layout_ok w o -> nth_error (heap w) o = Some ob ->
  get_ivar (w_heap w (heap w ++ [copy w ob fz])) (length (heap w)) n = get_ivar w o n.
Proof.
  intros w o ob fz n S LO H. specialize (LO _ H). unfold get_ivar, get_ivarid. cbn [heap w_heap].
  rewrite nth_error_last, H. cbn [copy o_class].
  assert (G : forall i, get_by_id (copy w ob fz) i = get_by_id ob i) by reflexivity.
  change (names_of (w_heap w (heap w ++ [copy w ob fz]))) with (names_of w).
  assert (BACK : forall k v, index_of n (names_of w (real_of w (o_class ob))) = Some k -> get_by_id ob k = Some v ->
                 index_of n (names_of w (o_class ob)) = Some k).
  { intros k v Q E'. pose proof (LO _ _ E') as L. apply index_of_Some in Q. rewrite Q in L.
    exact (index_of_nth _ _ _ (names_nodup _ _ S) L). }
  destruct (index_of n (names_of w (o_class ob))) as [ j | ] eqn:J.
  - pose proof (index_of_Some _ _ _ J) as J'. destruct (get_by_id ob j) as [ v | ] eqn:E.
    + pose proof (LO _ _ E) as L. rewrite J' in L. symmetry in L.
      rewrite (index_of_nth _ _ _ (names_nodup _ _ S) L). exact E.
    + destruct (index_of n (names_of w (real_of w (o_class ob)))) as [ k | ] eqn:Q; auto.
      rewrite G. destruct (get_by_id ob k) as [ v | ] eqn:E'; auto.
      specialize (BACK _ _ eq_refl E'). congruence.
  - destruct (index_of n (names_of w (real_of w (o_class ob)))) as [ k | ] eqn:Q; auto.
    rewrite G. destruct (get_by_id ob k) as [ v | ] eqn:E'; auto.
    specialize (BACK _ _ eq_refl E'). congruence.
Qed.

Lemma copies_agree : forall es o e, let w := after start es in let k := length (heap w) in
  always_ compilable start es -> o < k -> layout_ok w o ->
  (e = Dup o \/ exists fz, e = Clone o fz) ->
  snd (step w e) = Made k /\
  (forall n, get_ivar (fst (step w e)) k n = get_ivar w o n) /\
  (forall j n, j < k -> get_ivar (fst (step w e)) j n = get_ivar w j n).
Proof.
  intros es o e w k A L LO E. assert (S : Safe w) by (apply after_safe; auto using safe_start).
  destruct (nth_error (heap w) o) as [ ob | ] eqn:H; [ | apply nth_error_None in H; unfold k in L; lia ].
  destruct E as [ -> | (fz & ->) ]; cbn [step].
  - rewrite (dup_spec _ _ _ S H). cbn [fst snd]. split; [ reflexivity | ]. split.
    + intros n. apply get_ivar_copy; assumption.
    + intros j n J. apply get_ivar_push. assumption.
  - rewrite (clone_spec _ _ _ fz S H). cbn [fst snd]. split; [ reflexivity | ].
    assert (S1 : forall f, Safe (w_heap w (heap w ++ [copy w ob f]))) by (intros f; apply safe_push; auto; eapply copy_ok; eauto).
    destruct (real_of w (o_class ob) =? o_class ob).
    + split.
      * intros n. apply get_ivar_copy; assumption.
      * intros j n J. apply get_ivar_push. assumption.
    + split.
      * intros n. rewrite get_ivar_singleton by apply S1. apply get_ivar_copy; assumption.
      * intros j n J. rewrite get_ivar_singleton by apply S1. apply get_ivar_push. assumption.
Qed.
