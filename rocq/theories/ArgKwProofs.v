(** Proofs about the binding of keywords. *)

From Coq Require Import ZArith List Bool Lia FinFun.
From Verif Require Import ArgModel ArgSpec ArgProofs.
Import ListNotations.

Local Open Scope nat_scope.

(** ** Hashes *)

Lemma key_eqb_spec : forall a b, reflect (a = b) (key_eqb a b).
Proof.
  intros [x|x] [y|y]; cbn; try (constructor; congruence);
    destruct (Z.eqb_spec x y); constructor; congruence.
Qed.

Lemma key_eqb_refl : forall a, key_eqb a a = true.
Proof. intros a. destruct (key_eqb_spec a a); congruence. Qed.

Lemma hget_hput : forall h k v k',
  hget (hput h k v) k' = if key_eqb k k' then Some v else hget h k'.
Proof.
  induction h as [|[k0 v0] h IH]; intros k v k'; cbn; [reflexivity|].
  destruct (key_eqb_spec k0 k) as [->|D]; cbn.
  - destruct (key_eqb k k'); reflexivity.
  - rewrite IH. destruct (key_eqb_spec k0 k'); [|reflexivity].
    subst k'. destruct (key_eqb_spec k k0); congruence.
Qed.

Lemma in_hput : forall h k v k', In k' (map fst (hput h k v)) <-> k' = k \/ In k' (map fst h).
Proof.
  induction h as [|[k0 v0] h IH]; intros k v k'; cbn.
  - intuition.
  - destruct (key_eqb_spec k0 k) as [->|D]; cbn.
    + intuition.
    + rewrite IH. intuition.
Qed.

Lemma hash_ok_hput : forall h k v, hash_ok h -> hash_ok (hput h k v).
Proof.
  unfold hash_ok. induction h as [|[k0 v0] h IH]; intros k v H; cbn.
  - repeat constructor; auto.
  - inversion H; subst. destruct (key_eqb_spec k0 k) as [->|D]; cbn.
    + now constructor.
    + constructor; [|auto]. rewrite in_hput. intuition.
Qed.

Lemma hput_new : forall h k v, ~ In k (map fst h) -> hput h k v = h ++ [(k, v)].
Proof.
  induction h as [|[k0 v0] h IH]; intros k v H; cbn; [reflexivity|].
  destruct (key_eqb_spec k0 k) as [->|D]; [exfalso; apply H; now left|].
  rewrite IH; [reflexivity|]. intros X. apply H. now right.
Qed.

Lemma hput_all_app : forall l h, hash_ok (h ++ l) -> hput_all h l = h ++ l.
Proof.
  unfold hash_ok. induction l as [|[k v] l IH]; intros h H; cbn.
  - now rewrite app_nil_r.
  - rewrite hput_new.
    + unfold hput_all in IH. rewrite IH; rewrite <- app_assoc; [reflexivity|exact H].
    + rewrite map_app in H. cbn in H. apply NoDup_remove_2 in H. intros X. apply H.
      apply in_or_app. now left.
Qed.

Lemma hput_all_nil : forall l, hash_ok l -> hput_all [] l = l.
Proof. intros l H. now apply (hput_all_app l []). Qed.

Lemma hash_ok_hput_all : forall l h, hash_ok h -> hash_ok (hput_all h l).
Proof.
  induction l as [|[k v] l IH]; intros h H; cbn; [exact H|]. apply IH. now apply hash_ok_hput.
Qed.

Lemma in_hput_all : forall l h k,
  In k (map fst (hput_all h l)) <-> In k (map fst h) \/ In k (map fst l).
Proof.
  induction l as [|[k0 v0] l IH]; intros h k; cbn.
  - intuition.
  - unfold hput_all in IH. rewrite IH, in_hput. intuition.
Qed.

Lemma hget_none : forall h k, hget h k = None <-> ~ In k (map fst h).
Proof.
  induction h as [|[k0 v0] h IH]; intros k; cbn.
  - intuition.
  - destruct (key_eqb_spec k0 k) as [->|D].
    + split; [discriminate|]. intros X. exfalso. apply X. now left.
    + rewrite IH. intuition.
Qed.

Lemma hget_hput_all : forall l h k, hash_ok l ->
  hget (hput_all h l) k = match hget l k with Some v => Some v | None => hget h k end.
Proof.
  unfold hash_ok. induction l as [|[k0 v0] l IH]; intros h k H; cbn; [reflexivity|].
  inversion H; subst. unfold hput_all in IH. rewrite IH by assumption. rewrite hget_hput.
  destruct (key_eqb_spec k0 k) as [->|D]; [|reflexivity].
  replace (hget l k) with (@None value); [reflexivity|]. symmetry. now apply hget_none.
Qed.

(** ** What no keyword parameter takes *)

Definition taken (p : params) (k : key) : bool :=
  match k with KSym n => declared p n | KObj _ => false end.

Lemma leftover_taken : forall p h, leftover p h = filter (fun e => negb (taken p (fst e))) h.
Proof. intros p h. apply filter_ext. intros [[n|z] v]; reflexivity. Qed.

Lemma leftover_hput : forall p h k v,
  leftover p (hput h k v) = if taken p k then leftover p h else hput (leftover p h) k v.
Proof.
  intros p h k v. rewrite !leftover_taken.
  induction h as [|[k0 v0] h IH]; cbn.
  - destruct (taken p k); reflexivity.
  - destruct (key_eqb_spec k0 k) as [->|D]; cbn.
    + destruct (taken p k) eqn:T; cbn; [reflexivity|]. now rewrite key_eqb_refl.
    + destruct (taken p k0) eqn:T; cbn; rewrite IH; destruct (taken p k); try reflexivity.
      cbn. destruct (key_eqb_spec k0 k); congruence.
Qed.

Lemma leftover_hput_all : forall p l h,
  leftover p (hput_all h l) = hput_all (leftover p h) (leftover p l).
Proof.
  intros p l. induction l as [|[k v] l IH]; intros h; cbn [hput_all fold_left fst snd].
  - reflexivity.
  - unfold hput_all in *. rewrite IH, leftover_hput.
    rewrite (leftover_taken p ((k, v) :: l)). cbn [filter fst].
    rewrite <- (leftover_taken p l). destruct (taken p k); reflexivity.
Qed.

Lemma hdel_filter : forall h k, hash_ok h ->
  hdel h k = filter (fun e => negb (key_eqb (fst e) k)) h.
Proof.
  unfold hash_ok. induction h as [|[k0 v0] h IH]; intros k H; cbn; [reflexivity|].
  inversion H; subst. destruct (key_eqb_spec k0 k) as [->|D]; cbn.
  - rewrite <- IH by assumption.
    clear -H2. induction h as [|[k1 v1] h IH]; cbn; [reflexivity|].
    destruct (key_eqb_spec k1 k) as [->|D]; [exfalso; apply H2; now left|].
    rewrite <- IH; [reflexivity|]. intros X. apply H2. now right.
  - now rewrite IH.
Qed.

Lemma filter_ok : forall g (h : hash), hash_ok h -> hash_ok (filter g h).
Proof.
  unfold hash_ok. intros g h. induction h as [|e h IH]; cbn; intros H; [exact H|].
  inversion H; subst. destruct (g e); cbn; [|auto]. constructor; [|auto].
  intros X. apply H2. apply in_map_iff in X as (y & E & Y). apply filter_In in Y as [Y _].
  apply in_map_iff. exists y. auto.
Qed.

Lemma filter_filter : forall {A} (g g' : A -> bool) l,
  filter g (filter g' l) = filter (fun x => g' x && g x) l.
Proof.
  intros A g g' l. induction l as [|x l IH]; cbn; [reflexivity|].
  destruct (g' x); cbn; rewrite IH; [destruct (g x)|]; reflexivity.
Qed.

Lemma remove_declared_leftover : forall p h, hash_ok h -> remove_declared p h = leftover p h.
Proof.
  intros p h H. rewrite leftover_taken. unfold remove_declared, taken, declared.
  generalize (p_kws p). intros kws. clear p. revert h H.
  induction kws as [|[n b] kws IH]; intros h H; cbn.
  - clear H. induction h as [|[[n|z] v] h IH]; cbn; [reflexivity| |]; now rewrite <- IH.
  - rewrite IH by (rewrite hdel_filter by assumption; now apply filter_ok).
    rewrite hdel_filter by assumption. rewrite filter_filter. apply filter_ext.
    intros [[m|z] v]; cbn; [|reflexivity]. rewrite Z.eqb_sym. destruct (Z.eqb n m); reflexivity.
Qed.

(** ** Call sites *)

Definition lit_pairs (l : list (name * value)) : hash := map (fun e => (KSym (fst e), snd e)) l.

(** The literal keywords with the value each finally has. *)
Definition lit_hash (kws : list kwarg) : hash := hput_all [] (lit_pairs (lits kws)).

Lemma merge_fold : forall kws h, lits_first kws ->
  fold_left (fun h k => match k with
                        | KLit n v => hput h (KSym n) v
                        | KSplat None => h
                        | KSplat (Some x) => hput_all h x
                        end) kws h = put_splats (hput_all h (lit_pairs (lits kws))) (splats kws).
Proof.
  assert (S : forall kws h, lits kws = [] ->
    fold_left (fun h k => match k with
                        | KLit n v => hput h (KSym n) v
                        | KSplat None => h
                        | KSplat (Some x) => hput_all h x
                        end) kws h = put_splats h (splats kws)).
  { induction kws as [|[n v|o] kws IH]; intros h E; cbn in *; [reflexivity|discriminate|].
    rewrite IH by assumption. destruct o; reflexivity. }
  induction kws as [|[n v|o] kws IH]; intros h F; cbn in *.
  - reflexivity.
  - apply IH. exact F.
  - rewrite S by assumption. rewrite F. cbn. destruct o; reflexivity.
Qed.

Lemma merge_split : forall kws, lits_first kws -> merge kws = put_splats (lit_hash kws) (splats kws).
Proof. intros kws F. unfold merge. now apply merge_fold. Qed.

Definition look (slots : list value) (m : list (name * nat)) : hash :=
  map (fun e => (KSym (fst e), nth (snd e) slots VNil)) m.

Lemma look_im_put : forall slots m n i,
  look slots (im_put m n i) = hput (look slots m) (KSym n) (nth i slots VNil).
Proof.
  intros slots m n i. unfold look. induction m as [|[n' i'] m IH]; cbn; [reflexivity|].
  destruct (Z.eqb n' n); cbn; [reflexivity|]. now rewrite IH.
Qed.

Lemma look_im_fill : forall l pre m,
  look (pre ++ map snd l) (im_fill m (length pre) l)
  = hput_all (look (pre ++ map snd l) m) (lit_pairs l).
Proof.
  induction l as [|[n v] l IH]; intros pre m.
  - reflexivity.
  - cbn [im_fill map snd lit_pairs fst].
    specialize (IH (pre ++ [v]) (im_put m n (length pre))).
    rewrite app_length, Nat.add_1_r, <- app_assoc in IH. cbn [app] in IH. rewrite IH.
    rewrite look_im_put. cbn. rewrite nth_middle. reflexivity.
Qed.

Lemma im_put_bound : forall m n i b, i < b -> Forall (fun e => snd e < b) m ->
  Forall (fun e => snd e < b) (im_put m n i).
Proof.
  induction m as [|[n' i'] m IH]; intros n i b L H; cbn.
  - now constructor.
  - inversion H; subst. destruct (Z.eqb n' n); constructor; auto.
Qed.

Lemma im_fill_bound : forall l m i b, i + length l <= b -> Forall (fun e => snd e < b) m ->
  Forall (fun e => snd e < b) (im_fill m i l).
Proof.
  induction l as [|[n v] l IH]; intros m i b L H; cbn in *; [exact H|].
  apply IH; [lia|]. apply im_put_bound; [lia|exact H].
Qed.

Lemma lit_entries_look : forall s m, Forall (fun e => snd e < length (s_kw_slots s)) m ->
  lit_entries s m = Ok (look (s_kw_slots s) m).
Proof.
  intros s m H. induction m as [|[n i] m IH]; cbn; [reflexivity|].
  inversion H; subst. unfold kw_value. cbn in H2.
  destruct (nth_error (s_kw_slots s) i) as [v|] eqn:E; [|apply nth_error_None in E; lia].
  cbn. rewrite IH by assumption. cbn. now rewrite (nth_error_nth _ _ _ E).
Qed.

(** The facts about a compiled call site used below. *)
Record site_ok (kws : list kwarg) (s : site) : Prop := {
  so_slots : Forall (fun e => snd e < length (s_kw_slots s)) (s_kw_args s);
  so_look : look (s_kw_slots s) (s_kw_args s) = lit_hash kws;
  so_splats : s_hsplat s = splats kws }.

Lemma compile_site_ok : forall pos kws fwd, site_ok kws (compile_site pos kws fwd).
Proof.
  intros pos kws fwd. constructor; cbn.
  - apply im_fill_bound; [rewrite map_length; lia|constructor].
  - apply (look_im_fill (lits kws) [] []).
  - reflexivity.
Qed.

Lemma look_get : forall slots m n,
  match im_get m n with
  | Some i => hget (look slots m) (KSym n) = Some (nth i slots VNil)
  | None => hget (look slots m) (KSym n) = None
  end.
Proof.
  intros slots m n. induction m as [|[n' i'] m IH]; cbn; [reflexivity|].
  destruct (Z.eqb n' n); [reflexivity|exact IH].
Qed.

Lemma im_get_in : forall m n i, im_get m n = Some i -> exists n', In (n', i) m.
Proof.
  induction m as [|[n' i'] m IH]; intros n i H; cbn in *; [discriminate|].
  destruct (Z.eqb n' n); [injection H as ->; eauto|]. apply IH in H as [x X]. eauto.
Qed.

Lemma kw_value_ok : forall kws s n, site_ok kws s ->
  match im_get (s_kw_args s) n with
  | Some i => exists v, kw_value s i = Ok v /\ hget (lit_hash kws) (KSym n) = Some v
  | None => hget (lit_hash kws) (KSym n) = None
  end.
Proof.
  intros kws s n [B L _]. assert (G := look_get (s_kw_slots s) (s_kw_args s) n).
  rewrite L in G. destruct (im_get (s_kw_args s) n) as [i|] eqn:E; [|exact G].
  apply im_get_in in E as [n' X]. rewrite Forall_forall in B. specialize (B _ X). cbn in B.
  unfold kw_value. destruct (nth_error (s_kw_slots s) i) as [v|] eqn:E; [|apply nth_error_None in E; lia].
  exists v. split; [reflexivity|]. now rewrite G, (nth_error_nth _ _ _ E).
Qed.

Lemma lit_hash_ok : forall kws, hash_ok (lit_hash kws).
Proof. intros kws. apply hash_ok_hput_all. constructor. Qed.

Lemma kw_args_nil : forall kws s, site_ok kws s ->
  (s_kw_args s = [] <-> lit_hash kws = []) /\ length (s_kw_args s) = length (lit_hash kws).
Proof.
  intros kws s [B L _]. rewrite <- L. unfold look. rewrite map_length. split; [|reflexivity].
  destruct (s_kw_args s); cbn; split; congruence.
Qed.

Lemma lit_hash_nil : forall kws, lit_hash kws = [] <-> lits kws = [].
Proof.
  intros kws. unfold lit_hash. destruct (lits kws) as [|[n v] l]; [split; reflexivity|].
  split; [|discriminate]. intros H.
  assert (X : In (KSym n) (map fst (hput_all [] (lit_pairs ((n, v) :: l))))).
  { apply in_hput_all. right. cbn. now left. }
  rewrite H in X. contradiction.
Qed.

(** ** Cells behind a prefix *)

Lemma put_app : forall a x b c i, i = length a -> put (a ++ x :: b) i c = Ok (a ++ c :: b).
Proof.
  intros a x b c i ->. unfold put.
  replace (set_at (a ++ x :: b) (length a) c) with (Some (a ++ c :: b)); [reflexivity|].
  induction a as [|y a IH]; cbn; [reflexivity|]. now rewrite <- IH.
Qed.

Definition has (h : hash) (e : name * bool) : bool :=
  match hget h (KSym (fst e)) with Some _ => true | None => false end.

Lemma ordinary_ok : forall lits s kws a b used, site_ok lits s -> length kws <= length b ->
  ordinary s (a ++ b) (length a) kws used =
    Ok (a ++ map (fun e => cell_of (hget (lit_hash lits) (KSym (fst e)))) kws ++ skipn (length kws) b,
        used + length (filter (has (lit_hash lits)) kws)).
Proof.
  intros lits s kws. induction kws as [|[n r] kws IH]; intros a b used S L.
  - cbn. now rewrite Nat.add_0_r.
  - destruct b as [|x b]; [cbn in L; lia|]. cbn [length] in L.
    cbn [ordinary map filter fst]. unfold has at 1. cbn [fst].
    assert (K := kw_value_ok lits s n S).
    destruct (im_get (s_kw_args s) n) as [i|].
    + destruct K as (v & E & G). rewrite E, G. cbn [bind cell_of].
      rewrite put_app by reflexivity. cbn [bind].
      specialize (IH (a ++ [Val v]) b (Datatypes.S used) S).
      rewrite app_length, Nat.add_1_r, <- app_assoc in IH. cbn [app] in IH. rewrite IH by lia.
      rewrite <- app_assoc. cbn [length skipn app]. rewrite <- plus_n_Sm. reflexivity.
    + rewrite K. cbn [cell_of]. rewrite put_app by reflexivity. cbn [bind].
      specialize (IH (a ++ [Unset]) b used S).
      rewrite app_length, Nat.add_1_r, <- app_assoc in IH. cbn [app] in IH. rewrite IH by lia.
      rewrite <- app_assoc. reflexivity.
Qed.

Lemma splat_keywords_ok : forall h kws (g : name * bool -> cell) a b unused,
  length (filter (has h) kws) <= unused ->
  splat_keywords h (a ++ map g kws ++ b) (length a) kws unused =
    Ok (a ++ map (fun e => match hget h (KSym (fst e)) with Some v => Val v | None => g e end) kws ++ b,
        unused - length (filter (has h) kws)).
Proof.
  intros h kws. induction kws as [|[n r] kws IH]; intros g a b unused L.
  - cbn. now rewrite Nat.sub_0_r.
  - cbn [splat_keywords map filter fst app] in *. unfold has at 1 in L. unfold has at 1. cbn [fst] in *.
    destruct (hget h (KSym n)) as [v|].
    + cbn [length] in *. destruct unused as [|unused]; [lia|].
      rewrite put_app by reflexivity. cbn [bind].
      specialize (IH g (a ++ [Val v]) b unused).
      rewrite app_length, Nat.add_1_r, <- app_assoc in IH. cbn [app] in IH. rewrite IH by lia.
      rewrite <- app_assoc. cbn [app]. reflexivity.
    + specialize (IH g (a ++ [g (n, r)]) b unused L).
      rewrite app_length, Nat.add_1_r, <- app_assoc in IH. cbn [app] in IH. rewrite IH.
      rewrite <- app_assoc. reflexivity.
Qed.

(** Counting: the declared keywords found in a Hash are its taken keys. *)
Lemma has_count : forall p h, NoDup (map fst (p_kws p)) -> hash_ok h ->
  length (filter (has h) (p_kws p)) + length (leftover p h) = length h.
Proof.
  intros p h ND H. rewrite leftover_taken.
  assert (X : length (filter (has h) (p_kws p)) = length (filter (fun e => taken p (fst e)) h)).
  { apply Nat.le_antisymm.
    - rewrite <- (map_length (fun e : name * bool => KSym (fst e)) (filter _ _)).
      rewrite <- (map_length fst (filter (fun e => taken p (fst e)) h)).
      apply NoDup_incl_length.
      + assert (N : NoDup (map fst (filter (has h) (p_kws p)))).
        { revert ND. generalize (p_kws p). intros l. induction l as [|e l IH]; cbn; intros ND; [exact ND|].
          inversion ND; subst. destruct (has h e); cbn; [|auto]. constructor; [|auto].
          intros Y. apply H2. apply in_map_iff in Y as (z & Z1 & Z2). apply filter_In in Z2 as [Z2 _].
          apply in_map_iff. eauto. }
        rewrite <- (map_map fst KSym). apply Injective_map_NoDup; [|exact N]. intros x y. congruence.
      + intros k K. apply in_map_iff in K as (e & <- & E). apply filter_In in E as [E1 E2].
        unfold has in E2. destruct (hget h (KSym (fst e))) as [v|] eqn:G; [|discriminate].
        assert (I : In (KSym (fst e)) (map fst h)).
        { destruct (in_dec (fun x y => ltac:(destruct (key_eqb_spec x y); [now left|now right])) (KSym (fst e)) (map fst h)) as [I|I]; [exact I|].
          apply hget_none in I. congruence. }
        apply in_map_iff in I as (x & X1 & X2). apply in_map_iff. exists x. split; [exact X1|].
        apply filter_In. split; [exact X2|]. rewrite X1. cbn. unfold declared.
        apply existsb_exists. exists e. split; [exact E1|]. apply Z.eqb_refl.
    - rewrite <- (map_length (fun e : name * bool => KSym (fst e)) (filter _ _)).
      rewrite <- (map_length fst (filter (fun e => taken p (fst e)) h)).
      apply NoDup_incl_length; [apply filter_ok; exact H|].
      intros k K. apply in_map_iff in K as (e & <- & E). apply filter_In in E as [E1 E2].
      destruct e as [[n|z] v]; cbn in *; [|discriminate]. unfold declared in E2.
      apply existsb_exists in E2 as (d & D1 & D2). apply Z.eqb_eq in D2. subst n.
      apply in_map_iff. exists d. split; [reflexivity|]. apply filter_In. split; [exact D1|].
      unfold has. unfold name in *. destruct (hget h (KSym (fst d))) eqn:G; [reflexivity|].
      apply hget_none in G. exfalso. apply G. apply in_map_iff. exists (KSym (fst d), v). auto. }
  rewrite X. clear. induction h as [|e h IH]; cbn; [reflexivity|].
  destruct (taken p (fst e)); cbn; lia.
Qed.

(** ** Double splats *)

Definition hashes_ok (l : list (option hash)) : Prop :=
  Forall (fun o => match o with Some h => hash_ok h | None => True end) l.

Lemma hget_put_splats_step : forall o h k, (match o with Some x => hash_ok x | None => True end) ->
  hget (match o with None => h | Some x => hput_all h x end) k =
  match match o with Some x => hget x k | None => None end with
  | Some v => Some v | None => hget h k end.
Proof. intros [x|] h k H; [now apply hget_hput_all|reflexivity]. Qed.

Definition splat_unknowns (p : params) (l : list (option hash)) : list key :=
  flat_map (fun o => match o with Some h => map fst (leftover p h) | None => [] end) l.

Lemma splat_loop_ok : forall p, NoDup (map fst (p_kws p)) -> forall l h a b un,
  hashes_ok l -> length a = kw_base p ->
  splat_loop p (a ++ kw_cells p h ++ b) l un =
    Ok (a ++ kw_cells p (put_splats h l) ++ b,
        if p_kwrest p then un else un ++ splat_unknowns p l).
Proof.
  intros p ND l. induction l as [|[x|] l IH]; intros h a b un OK LA.
  - cbn. destruct (p_kwrest p); [reflexivity|]. now rewrite app_nil_r.
  - inversion OK; subst. cbn [splat_loop put_splats fold_left splat_unknowns flat_map].
    rewrite <- LA. unfold kw_cells at 1.
    assert (HC := has_count p x ND H1).
    rewrite splat_keywords_ok by lia. cbn [bind].
    replace (map _ (p_kws p)) with (kw_cells p (hput_all h x)).
    2:{ apply map_ext. intros e. rewrite hget_hput_all by assumption.
        destruct (hget x (KSym (fst e))); reflexivity. }
    rewrite IH by assumption. unfold put_splats, splat_unknowns. do 2 f_equal.
    destruct (p_kwrest p); cbn [negb]; [now rewrite andb_false_r|]. rewrite andb_true_r.
    destruct (Nat.ltb_spec 0 (length x - length (filter (has x) (p_kws p)))).
    + rewrite <- app_assoc. reflexivity.
    + destruct (leftover p x) eqn:E; [reflexivity|]. cbn in HC. lia.
  - inversion OK; subst. cbn [splat_loop put_splats fold_left splat_unknowns flat_map app].
    rewrite IH by assumption. reflexivity.
Qed.

Lemma leftover_put_splats : forall p l h, hashes_ok l ->
  leftover p (put_splats h l) =
  put_splats (leftover p h) (map (option_map (remove_declared p)) l).
Proof.
  intros p l. induction l as [|[x|] l IH]; intros h OK; inversion OK; subst.
  - reflexivity.
  - cbn [put_splats fold_left map option_map]. unfold put_splats in IH. rewrite IH by assumption.
    now rewrite leftover_hput_all, remove_declared_leftover.
  - cbn [put_splats fold_left map option_map]. apply IH. assumption.
Qed.

Lemma in_leftover : forall p h k,
  In k (map fst (leftover p h)) <-> In k (map fst h) /\ taken p k = false.
Proof.
  intros p h k. rewrite leftover_taken. rewrite !in_map_iff. split.
  - intros (e & <- & E). apply filter_In in E as [E1 E2]. apply negb_true_iff in E2. eauto.
  - intros [(e & <- & E) T]. exists e. split; [reflexivity|]. apply filter_In. split; [exact E|].
    now rewrite T.
Qed.

Lemma in_put_splats : forall l h k,
  In k (map fst (put_splats h l)) <->
  In k (map fst h) \/ exists x, In (Some x) l /\ In k (map fst x).
Proof.
  induction l as [|[x|] l IH]; intros h k; cbn [put_splats fold_left].
  - split; [auto|]. intros [H|(x & [] & _)]. exact H.
  - unfold put_splats in IH. rewrite IH, in_hput_all. split.
    + intros [[H|H]|(y & Y1 & Y2)]; [auto| |].
      * right. exists x. split; [now left|exact H].
      * right. exists y. split; [now right|exact Y2].
    + intros [H|(y & [Y|Y] & Y2)]; [auto| |].
      * injection Y as ->. auto.
      * right. eauto.
  - unfold put_splats in IH. rewrite IH. split.
    + intros [H|(y & Y1 & Y2)]; [auto|]. right. exists y. split; [now right|exact Y2].
    + intros [H|(y & [Y|Y] & Y2)]; [auto|discriminate|]. right. eauto.
Qed.

(** ** The missing keywords *)

Lemma missing_ok : forall h kws a b,
  missing (a ++ map (fun e => cell_of (hget h (KSym (fst e)))) kws ++ b) (length a) kws =
    Ok (map fst (filter (fun e => snd e && match hget h (KSym (fst e)) with
                                     | None => true | Some _ => false end) kws)).
Proof.
  intros h kws. induction kws as [|[n r] kws IH]; intros a b; [reflexivity|].
  cbn [missing map app fst snd filter].
  specialize (IH (a ++ [cell_of (hget h (KSym n))]) b).
  rewrite app_length, Nat.add_1_r, <- app_assoc in IH. cbn [app] in IH. rewrite IH. cbn [bind].
  destruct r; cbn [andb]; [|reflexivity].
  rewrite nth_error_app2, Nat.sub_diag by lia. cbn [nth_error].
  destruct (hget h (KSym n)); reflexivity.
Qed.

Lemma check_missing_ok : forall p h a b, length a = kw_base p ->
  check_missing p (a ++ kw_cells p h ++ b) =
    match missing_kws p h with [] => Ok (a ++ kw_cells p h ++ b) | l => Err (EMissing l) end.
Proof.
  intros p h a b L. unfold check_missing. rewrite <- L. unfold kw_cells at 1.
  rewrite missing_ok. cbn [bind]. unfold missing_kws. destruct (map fst (filter _ (p_kws p))); reflexivity.
Qed.

Lemma skipn_cons : forall {A} n (b : list A) c t, skipn n b = c :: t -> skipn (S n) b = t.
Proof.
  intros A n. induction n as [|n IH]; intros [|x b] c t H; cbn in *; try discriminate.
  - congruence.
  - exact (IH _ _ _ H).
Qed.

(** ** handle_keyword *)

Lemma kw_may_exists_ok : forall kws s, site_ok kws s ->
  kw_may_exists s = match kws with [] => false | _ => true end.
Proof.
  intros kws s S. unfold kw_may_exists. assert (E := proj1 (kw_args_nil kws s S)).
  rewrite (so_splats _ _ S). rewrite (lit_hash_nil kws) in E.
  destruct kws as [|[n v|o] kws]; cbn in *.
  - rewrite (proj2 E eq_refl). reflexivity.
  - destruct (s_kw_args s); [|reflexivity]. destruct E as [E _]. specialize (E eq_refl). discriminate.
  - destruct (s_kw_args s); reflexivity.
Qed.

Lemma kw_cells_length : forall p h, length (kw_cells p h) = length (p_kws p).
Proof. intros p h. apply map_length. Qed.

(** The keywords a call passes: those written, or the promoted Hash. *)
Definition passed (kws : list kwarg) (r2k : option hash) : hash :=
  match r2k with Some h => put_splats (merge kws) [Some h] | None => merge kws end.

Lemma leftover_look : forall p s,
  look (s_kw_slots s) (filter (fun e => negb (declared p (fst e))) (s_kw_args s))
  = leftover p (look (s_kw_slots s) (s_kw_args s)).
Proof.
  intros p s. unfold look, leftover. generalize (s_kw_args s). intros m.
  induction m as [|[n i] m IH]; cbn; [reflexivity|]. destruct (declared p n); cbn; [exact IH|].
  now rewrite IH.
Qed.

Lemma put_splats_app : forall a b h, put_splats h (a ++ b) = put_splats (put_splats h a) b.
Proof. intros a b h. apply fold_left_app. Qed.

Lemma hash_ok_put_splats : forall l h, hash_ok h -> hash_ok (put_splats h l).
Proof.
  induction l as [|[x|] l IH]; intros h H; cbn [put_splats fold_left].
  - exact H.
  - apply IH. now apply hash_ok_hput_all.
  - apply IH. exact H.
Qed.

Lemma any_passed : forall kws s, site_ok kws s -> lits_first kws ->
  (any_keyword_passed s = true <-> merge kws <> []).
Proof.
  intros kws s S F. rewrite merge_split by assumption.
  assert (E := proj1 (kw_args_nil kws s S)). unfold any_keyword_passed. rewrite (so_splats _ _ S).
  destruct (s_kw_args s) as [|x m].
  - rewrite (proj1 E eq_refl). rewrite existsb_exists. split.
    + intros ([[|e h]|] & I & T) X; try discriminate.
      assert (Y : In (fst e) (map fst (put_splats [] (splats kws)))).
      { apply in_put_splats. right. exists (e :: h). split; [exact I|]. now left. }
      rewrite X in Y. contradiction.
    + intros X. destruct (put_splats [] (splats kws)) as [|e h] eqn:P; [congruence|].
      assert (Y : In (fst e) (map fst (put_splats [] (splats kws)))) by (rewrite P; now left).
      apply in_put_splats in Y as [[]|(x & X1 & X2)]. exists (Some x). split; [exact X1|].
      destruct x; [contradiction|reflexivity].
  - split; [|reflexivity]. intros _ X.
    destruct (lit_hash kws) as [|e h] eqn:P; [destruct E as [_ E]; now specialize (E eq_refl)|].
    assert (Y : In (fst e) (map fst (put_splats (e :: h) (splats kws)))).
    { apply in_put_splats. left. now left. }
    rewrite X in Y. contradiction.
Qed.

Lemma handle_keyword_ok : forall p kws s r2k a b,
  params_ok p -> site_ok kws s -> lits_first kws -> hashes_ok (splats kws) ->
  (match r2k with Some h => hash_ok h | None => True end) ->
  (no_keyword p = true -> kws = [] /\ r2k = None) ->
  (p_forbid p = true -> merge kws = [] /\ passed kws r2k = []) ->
  length a = total_pos p -> slots p - total_pos p <= length b ->
  exists x, kw_result p (passed kws r2k) x /\
    match x with
    | inl ks => handle_keyword p (a ++ b) s r2k = Ok (a ++ ks ++ skipn (length ks) b)
    | inr e => handle_keyword p (a ++ b) s r2k = Err e
    end.
Proof.
  intros p kws s r2k a b [ND PF] S F OK OKr NK FB LA LB. unfold handle_keyword, slots in *.
  destruct (p_forbid p) eqn:FO.
  - destruct (PF eq_refl) as [KR KK]. destruct (FB eq_refl) as [M PN].
    replace (any_keyword_passed s) with false.
    2:{ symmetry. apply not_true_iff_false. rewrite (any_passed kws s S F). auto. }
    rewrite KR in *. rewrite KK in LB. cbn in LB. destruct b as [|c b]; [cbn in LB; lia|].
    rewrite put_app by (unfold kwrest_slot; rewrite KK; cbn; lia).
    exists (inl (kw_cells p (passed kws r2k) ++ [Val VNil])). split.
    + apply kwr_rest; [unfold missing_kws; now rewrite KK|exact KR|].
      right. split; [|reflexivity]. now rewrite PN.
    + unfold kw_cells. rewrite KK. reflexivity.
  - unfold ordinary_keyword.
    replace (kw_base p) with (length a) by (rewrite LA; reflexivity).
    rewrite (ordinary_ok kws) by (assumption || lia). cbn [bind].
    rewrite (proj2 (kw_args_nil kws s S)).
    assert (HC := has_count p (lit_hash kws) ND (lit_hash_ok kws)).
    set (u1 := if p_kwrest p then [] else map fst (leftover p (lit_hash kws))).
    replace (if (0 + length (filter (has (lit_hash kws)) (p_kws p)) <? length (lit_hash kws))
             && negb (p_kwrest p) then _ else _)
      with (Ok (a ++ kw_cells p (lit_hash kws) ++ skipn (length (p_kws p)) b, u1)).
    2:{ subst u1. destruct (p_kwrest p); cbn [negb]; [now rewrite andb_false_r|]. rewrite andb_true_r.
        destruct (Nat.ltb_spec (0 + length (filter (has (lit_hash kws)) (p_kws p))) (length (lit_hash kws))).
        - do 2 f_equal. rewrite <- (so_look _ _ S), <- leftover_look.
          unfold look. rewrite map_map. reflexivity.
        - destruct (leftover p (lit_hash kws)) eqn:E; [reflexivity|]. cbn in HC. lia. }
    cbn [bind]. unfold hash_splat_and_kw_rest.
    remember (skipn (length (p_kws p)) b) as b' eqn:EB.
    assert (LB' : (if p_kwrest p then 1 else 0) <= length b') by (rewrite EB, skipn_length; lia).
    destruct (no_keyword p) eqn:N.
    + destruct (NK eq_refl) as [-> ->]. cbn [bind passed].
      rewrite check_missing_ok by (rewrite LA; reflexivity).
      assert (KK : p_kws p = [] /\ p_kwrest p = false).
      { unfold no_keyword in N. destruct (p_kws p); [|discriminate]. split; [reflexivity|].
        now apply negb_true_iff. }
      destruct KK as [KK KR]. unfold missing_kws, kw_cells. subst u1 b'. rewrite KK, KR. cbn.
      exists (inl (kw_cells p [])). split.
      * apply kwr_plain; [unfold missing_kws; now rewrite KK|exact KR|reflexivity].
      * unfold kw_cells. rewrite KK. reflexivity.
    + set (all := s_hsplat s ++ match r2k with Some h => [Some h] | None => [] end).
      assert (OKa : hashes_ok all).
      { subst all. apply Forall_app. rewrite (so_splats _ _ S). split; [exact OK|].
        destruct r2k; repeat constructor. exact OKr. }
      assert (PA : passed kws r2k = put_splats (lit_hash kws) all).
      { subst all. rewrite put_splats_app, (so_splats _ _ S). unfold passed.
        rewrite merge_split by assumption. destruct r2k; reflexivity. }
      rewrite splat_loop_ok by (auto; rewrite LA; reflexivity). cbn [bind app].
      rewrite <- PA. set (H := passed kws r2k) in *.
      destruct (p_kwrest p) eqn:KR.
      * destruct b' as [|c b'']; [cbn in LB'; lia|].
        assert (W : forall c', put (a ++ kw_cells p H ++ c :: b'') (kwrest_slot p) c' =
                     Ok (a ++ kw_cells p H ++ c' :: b'')).
        { intros c'. rewrite !(app_assoc a). apply put_app. rewrite app_length, kw_cells_length, LA. reflexivity. }
        assert (C : exists c', is_kwrest (leftover p H) c' /\
          (if negb (kw_may_exists s) && match r2k with None => true | _ => false end
           then let! f := put (a ++ kw_cells p H ++ c :: b'') (kwrest_slot p) (Val VNil) in Ok (f, @nil key)
           else
            let! ls := lit_entries s (filter (fun e => negb (declared p (fst e))) (s_kw_args s)) in
            let! f := put (a ++ kw_cells p H ++ c :: b'') (kwrest_slot p)
                (Val (VHash false (put_splats (hput_all [] ls) (map (option_map (remove_declared p)) all)))) in
            Ok (f, [])) = Ok (a ++ kw_cells p H ++ c' :: b'', [])).
        { rewrite (kw_may_exists_ok kws s S).
          destruct (negb match kws with [] => false | _ :: _ => true end
                    && match r2k with None => true | _ => false end) eqn:Q.
          - exists (Val VNil). split; [|rewrite W; reflexivity]. right. split; [|reflexivity].
            destruct kws; [|discriminate]. destruct r2k; [discriminate|]. reflexivity.
          - exists (Val (VHash false (leftover p H))). split; [now left|].
            rewrite lit_entries_look.
            2:{ apply Forall_forall. intros e E. apply filter_In in E as [E _].
                assert (B := so_slots _ _ S). rewrite Forall_forall in B. auto. }
            cbn [bind]. rewrite leftover_look, (so_look _ _ S).
            rewrite hput_all_nil by (apply filter_ok; apply lit_hash_ok).
            rewrite <- leftover_put_splats, <- PA by assumption. rewrite W. reflexivity. }
        destruct C as (c' & C1 & C2).
        rewrite C2. cbn [bind].
        rewrite check_missing_ok by (rewrite LA; reflexivity).
        destruct (missing_kws p H) as [|m ms] eqn:M.
        -- exists (inl (kw_cells p H ++ [c'])). split; [apply kwr_rest; auto|].
           cbn [bind]. subst u1. cbn [app]. f_equal. f_equal. rewrite <- app_assoc. f_equal.
           rewrite app_length, kw_cells_length. cbn [length app]. f_equal.
           rewrite Nat.add_1_r. symmetry. apply (skipn_cons _ _ c). symmetry. exact EB.
        -- exists (inr (EMissing (missing_kws p H))). rewrite M. split; [|reflexivity].
           rewrite <- M. apply kwr_missing. congruence.
      * cbn [bind]. rewrite check_missing_ok by (rewrite LA; reflexivity).
        destruct (missing_kws p H) as [|m ms] eqn:M.
        2:{ exists (inr (EMissing (missing_kws p H))). rewrite M. split; [|reflexivity].
            rewrite <- M. apply kwr_missing. congruence. }
        cbn [bind].
        assert (U : forall k, In k (u1 ++ splat_unknowns p all) <-> In k (map fst (leftover p H))).
        { intros k. subst u1. rewrite in_app_iff, !in_leftover. rewrite PA, in_put_splats.
          unfold splat_unknowns. rewrite in_flat_map. split.
          - intros [[X T]|([x|] & X1 & X2)]; [auto| |contradiction].
            apply in_leftover in X2 as [X2 T]. split; [|exact T]. right. eauto.
          - intros [[X|(x & X1 & X2)] T]; [auto|]. right. exists (Some x). split; [exact X1|].
            now apply in_leftover. }
        destruct (u1 ++ splat_unknowns p all) as [|k0 us] eqn:UU.
        -- exists (inl (kw_cells p H)). split.
           ++ apply kwr_plain; [exact M|exact KR|]. destruct (leftover p H) as [|e l]; [reflexivity|].
              exfalso. apply (U (fst e)). now left.
           ++ rewrite kw_cells_length, <- EB. reflexivity.
        -- exists (inr (EUnknown (k0 :: us))). split; [|reflexivity].
           apply kwr_unknown; [exact M|exact KR| |exact U].
           intros X. rewrite X in U. apply (U k0). now left.
Qed.

Lemma handle_keyword_none : forall p f s, no_keyword p = true -> p_forbid p = false ->
  s_kw_args s = [] -> handle_keyword p f s None = Ok f.
Proof.
  intros p f s N FO K. unfold handle_keyword, ordinary_keyword, hash_splat_and_kw_rest, check_missing.
  rewrite FO, N, K. unfold no_keyword in N. destruct (p_kws p); [|discriminate]. reflexivity.
Qed.
