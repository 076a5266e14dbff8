From Coq Require Import String ZArith List Bool Lia.
From Verif Require Import Utf8Spec Utf8Model Utf8Proofs IdModel IdSpec.
Import ListNotations.
Open Scope Z_scope.

(** * Lookup *)
Lemma lookup_cons {K V} dec (k : K) (v : V) k' m :
  lookup dec k' ((k, v) :: m) = if dec k' k then Some v else lookup dec k' m.
Proof. reflexivity. Qed.

(** * The invariant *)
Definition zlen (t : table) : Z := Z.of_nat (length (names t)).

Record inv (t : table) : Prop := {
  i_len : 100 <= zlen t < 2 ^ 32;
  i_rev : forall s id, lookup bytes_dec s (rev t) = Some id ->
            name_of t id = Some (NUtf8 s) /\ ~ unnamed id;
  i_revb : forall b e id, lookup key_dec (b, e) (revb t) = Some id ->
            name_of t id = Some (NBytes b) /\ lookup Z.eq_dec id (encs t) = Some e;
  i_str : forall id s, name_of t id = Some (NUtf8 s) -> ~ unnamed id -> lookup bytes_dec s (rev t) = Some id;
  i_byt : forall id b, name_of t id = Some (NBytes b) ->
            exists e, lookup Z.eq_dec id (encs t) = Some e /\ lookup key_dec (b, e) (revb t) = Some id;
  i_enc : forall id e, lookup Z.eq_dec id (encs t) = Some e -> exists b, name_of t id = Some (NBytes b);
  i_un : forall id, unnamed id -> name_of t id = Some (NUtf8 [])
}.

(** [t'] keeps everything [t] says. *)
Record ext (t t' : table) : Prop := {
  x_rev : forall s id, lookup bytes_dec s (rev t) = Some id -> lookup bytes_dec s (rev t') = Some id;
  x_revb : forall k id, lookup key_dec k (revb t) = Some id -> lookup key_dec k (revb t') = Some id;
  x_name : forall id n, name_of t id = Some n -> name_of t' id = Some n;
  x_enc : forall id n, name_of t id = Some n -> lookup Z.eq_dec id (encs t') = lookup Z.eq_dec id (encs t)
}.

Lemma ext_refl t : ext t t.
Proof. constructor; auto. Qed.
Lemma ext_trans a b c : ext a b -> ext b c -> ext a c.
Proof.
  intros [r1 b1 n1 e1] [r2 b2 n2 e2]. constructor; eauto.
  intros id n h. rewrite (e2 id n), (e1 id n); auto.
Qed.

Lemma name_of_range t id n : name_of t id = Some n -> 1 <= id <= zlen t.
Proof.
  unfold name_of, zlen. destruct (Z.leb_spec 1 id); [|discriminate]. intro h0.
  assert (h1 : nth_error (names t) (Z.to_nat (id - 1)) <> None) by congruence.
  apply nth_error_Some in h1. lia.
Qed.
Lemma name_of_some t id : 1 <= id <= zlen t -> exists n, name_of t id = Some n.
Proof.
  intro h. unfold name_of, zlen in *. destruct (Z.leb_spec 1 id); [|lia].
  destruct (nth_error (names t) (Z.to_nat (id - 1))) eqn:e; eauto.
  apply nth_error_None in e. lia.
Qed.

(** A table with one more name. *)
Lemma name_of_app rv rb es t n id :
  name_of (mk rv rb (names t ++ [n]) es) id =
  if id =? zlen t + 1 then Some n else name_of t id.
Proof.
  unfold name_of, zlen. cbn [names]. destruct (Z.leb_spec 1 id).
  - destruct (Z.eqb_spec id (Z.of_nat (length (names t)) + 1)).
    + rewrite nth_error_app2 by lia. replace (Z.to_nat (id - 1) - length (names t))%nat with 0%nat by lia. reflexivity.
    + destruct (Z.leb_spec id (Z.of_nat (length (names t)))).
      * rewrite nth_error_app1 by lia. reflexivity.
      * rewrite (proj2 (nth_error_None _ _)) by (rewrite app_length; cbn; lia).
        symmetry. apply nth_error_None. lia.
  - destruct (Z.eqb_spec id (Z.of_nat (length (names t)) + 1)); [lia|reflexivity].
Qed.

Lemma fresh_spec t id : zlen t < 2 ^ 32 -> fresh t = Some id -> id = zlen t + 1 /\ zlen t + 1 < 2 ^ 32.
Proof.
  unfold fresh, zlen. intros h0 h. set (n := Z.of_nat (length (names t))) in *.
  assert (0 <= n) by (unfold n; lia). rewrite Z.mod_small in h by lia.
  destruct (Z.eqb_spec (n + 1) (2 ^ 32)); [discriminate|]. assert (id = n + 1) by congruence. lia.
Qed.
Lemma fresh_none t : zlen t < 2 ^ 32 -> fresh t = None -> zlen t = 2 ^ 32 - 1.
Proof.
  unfold fresh, zlen. intros h0 h. set (n := Z.of_nat (length (names t))) in *.
  assert (0 <= n) by (unfold n; lia). rewrite Z.mod_small in h by lia.
  destruct (Z.eqb_spec (n + 1) (2 ^ 32)); [lia|discriminate].
Qed.

Definition keeps (t : table) (r : option (table * Z)) : Prop :=
  match r with None => zlen t = 2 ^ 32 - 1 | Some (t', _) => inv t' /\ ext t t' end.

Lemma get_id_step t s t' id : inv t -> get_id t s = Some (t', id) ->
  inv t' /\ ext t t' /\ lookup bytes_dec s (rev t') = Some id.
Proof.
  intros I h. unfold get_id in h. destruct (lookup bytes_dec s (rev t)) as [i|] eqn:el.
  { assert (t' = t /\ id = i) as [-> ->] by (split; congruence). split; [exact I|]. split; [apply ext_refl|exact el]. }
  destruct (fresh t) as [i|] eqn:ef; [|discriminate].
  destruct I as [iL iR iB iS iY iE iU]. destruct (fresh_spec t i) as [ei hb]; [lia|exact ef|].
  assert (id = i) by congruence. assert (et : t' = mk ((s, i) :: rev t) (revb t) (names t ++ [NUtf8 s]) (encs t)) by congruence.
  subst id t'. clear h.
  assert (hn := fun j => name_of_app ((s, i) :: rev t) (revb t) (encs t) t (NUtf8 s) j). rewrite <- ei in hn.
  assert (old : forall j n, name_of t j = Some n -> (j =? i) = false).
  { intros j n hj. apply name_of_range in hj. apply Z.eqb_neq. lia. }
  split; [constructor|split; [constructor|]].
  - unfold zlen in *. cbn [names]. rewrite app_length. cbn [length]. lia.
  - intros s0 id. cbn [IdModel.rev]. rewrite lookup_cons, hn. destruct (bytes_dec s0 s) as [->|ne]; intro hl.
    + assert (id = i) by congruence. subst id. rewrite Z.eqb_refl. unfold unnamed. split; [reflexivity|lia].
    + destruct (iR _ _ hl) as [h1 h2]. rewrite (old _ _ h1). auto.
  - intros b e id hl. cbn [revb encs] in *. rewrite hn. destruct (iB _ _ _ hl) as [h1 h2]. rewrite (old _ _ h1). auto.
  - intros id s0. rewrite hn. cbn [IdModel.rev]. rewrite lookup_cons. destruct (Z.eqb_spec id i) as [->|ne].
    + intros e _. assert (s0 = s) by congruence. subst s0. destruct (bytes_dec s s); congruence.
    + intros h1 h2. destruct (bytes_dec s0 s) as [->|]; [|apply iS; auto].
      rewrite (iS _ _ h1 h2) in el. discriminate.
  - intros id b. rewrite hn. cbn [revb encs]. destruct (Z.eqb_spec id i); [discriminate|apply iY].
  - intros id e hl. cbn [encs] in hl. destruct (iE _ _ hl) as [b hb']. exists b. rewrite hn, (old _ _ hb'). exact hb'.
  - intros id hu. rewrite hn. rewrite (old _ _ (iU _ hu)). auto.
  - intros s0 id hl. cbn [IdModel.rev]. rewrite lookup_cons. destruct (bytes_dec s0 s) as [->|]; [congruence|exact hl].
  - auto.
  - intros id n hj. rewrite hn, (old _ _ hj). exact hj.
  - reflexivity.
  - cbn [IdModel.rev]. rewrite lookup_cons. destruct (bytes_dec s s); congruence.
Qed.

Lemma get_bytes_step t b e t' id : inv t -> get_id_from_bytes t b e = Some (t', id) ->
  inv t' /\ ext t t' /\ lookup key_dec (b, e) (revb t') = Some id.
Proof.
  intros I h. unfold get_id_from_bytes in h. destruct (lookup key_dec (b, e) (revb t)) as [i|] eqn:el.
  { assert (t' = t /\ id = i) as [-> ->] by (split; congruence). split; [exact I|]. split; [apply ext_refl|exact el]. }
  destruct (fresh t) as [i|] eqn:ef; [|discriminate].
  destruct I as [iL iR iB iS iY iE iU]. destruct (fresh_spec t i) as [ei hb]; [lia|exact ef|].
  assert (id = i) by congruence. assert (et : t' = mk (rev t) (((b, e), i) :: revb t) (names t ++ [NBytes b]) ((i, e) :: encs t)) by congruence.
  subst id t'. clear h.
  assert (hn := fun j => name_of_app (rev t) (((b, e), i) :: revb t) ((i, e) :: encs t) t (NBytes b) j). rewrite <- ei in hn.
  assert (old : forall j n, name_of t j = Some n -> (j =? i) = false).
  { intros j n hj. apply name_of_range in hj. apply Z.eqb_neq. lia. }
  assert (oldd : forall j n (X : Type) (x y : X), name_of t j = Some n -> (if Z.eq_dec j i then x else y) = y).
  { intros j n X x y hj. apply name_of_range in hj. destruct (Z.eq_dec j i); [lia|reflexivity]. }
  split; [constructor|split; [constructor|]].
  - unfold zlen in *. cbn [names]. rewrite app_length. cbn [length]. lia.
  - intros s id hl. cbn [IdModel.rev] in hl. rewrite hn. destruct (iR _ _ hl) as [h1 h2]. rewrite (old _ _ h1). auto.
  - intros b0 e0 id. cbn [revb encs]. rewrite !lookup_cons, hn. destruct (key_dec (b0, e0) (b, e)) as [ek|ne]; intro hl.
    + assert (id = i) by congruence. assert (b0 = b) by congruence. assert (e0 = e) by congruence. subst.
      rewrite Z.eqb_refl. destruct (Z.eq_dec _ _); [auto|congruence].
    + destruct (iB _ _ _ hl) as [h1 h2]. rewrite (old _ _ h1), (oldd _ _ _ _ _ h1). auto.
  - intros id s. rewrite hn. cbn [IdModel.rev]. destruct (Z.eqb_spec id i); [discriminate|apply iS].
  - intros id b0. rewrite hn. cbn [revb encs]. destruct (Z.eqb_spec id i) as [->|ne].
    + intro eb. assert (b0 = b) by congruence. subst b0. exists e. rewrite !lookup_cons.
      destruct (Z.eq_dec i i); [|congruence]. destruct (key_dec (b, e) (b, e)); [auto|congruence].
    + intro h1. destruct (iY _ _ h1) as (e0 & h2 & h3). exists e0. rewrite !lookup_cons.
      rewrite (oldd _ _ _ _ _ h1). split; [exact h2|].
      destruct (key_dec (b0, e0) (b, e)) as [ek|]; [|exact h3]. rewrite ek in h3. congruence.
  - intros id e0. cbn [encs]. rewrite lookup_cons. destruct (Z.eq_dec id i) as [->|ne]; intro hl.
    + exists b. rewrite hn, Z.eqb_refl. reflexivity.
    + destruct (iE _ _ hl) as [b0 hb0]. exists b0. rewrite hn, (old _ _ hb0). exact hb0.
  - intros id hu. rewrite hn, (old _ _ (iU _ hu)). auto.
  - auto.
  - intros k id hl. cbn [revb]. rewrite lookup_cons. destruct (key_dec k (b, e)) as [->|]; [congruence|exact hl].
  - intros id n hj. rewrite hn, (old _ _ hj). exact hj.
  - intros id n hj. cbn [encs]. rewrite lookup_cons. rewrite (oldd _ _ _ _ _ hj). reflexivity.
  - cbn [revb]. rewrite lookup_cons. destruct (key_dec (b, e) (b, e)); congruence.
Qed.

Lemma serve_step t r t' id : inv t -> serve t r = Some (t', id) -> inv t' /\ ext t t'.
Proof.
  intros I h. destruct r; cbn [serve] in h.
  - destruct (get_id_step _ _ _ _ I h) as (a & b & _). auto.
  - destruct (get_bytes_step _ _ _ _ _ I h) as (a & b0 & _). auto.
  - unfold add_ivar_prefix in h. destruct (name_of t id0); [|discriminate].
    destruct (get_id_step _ _ _ _ I h) as (a & b & _). auto.
  - unfold add_assign_postfix in h. destruct (name_of t id0); [|discriminate].
    destruct (get_id_step _ _ _ _ I h) as (a & b & _). auto.
Qed.
Lemma run_step rs : forall t t', inv t -> run t rs = Some t' -> inv t' /\ ext t t'.
Proof.
  induction rs as [|r rs IH]; intros t t' I h; cbn in h.
  { assert (t' = t) by congruence. subst. split; [exact I|apply ext_refl]. }
  destruct (serve t r) as [[t1 i]|] eqn:es; [|discriminate].
  destruct (serve_step _ _ _ _ I es) as [I1 x1]. destruct (IH _ _ I1 h) as [I2 x2].
  split; [exact I2|]. eapply ext_trans; eauto.
Qed.

(** * The initial table *)
Definition check_new : bool :=
  forallb (fun id => match name_of new (Z.of_nat id) with
    | Some (NUtf8 s) => if (96 <=? Z.of_nat id) then match s with [] => true | _ => false end
                        else match lookup bytes_dec s (rev new) with Some j => j =? Z.of_nat id | None => false end
    | _ => false end) (seq 1 100)
  && forallb (fun p => match name_of new (snd p) with Some (NUtf8 s) => (if bytes_dec s (fst p) then true else false) | _ => false end
              && (snd p <? 96)) (rev new).
Lemma check_new_ok : check_new = true. Proof. vm_compute. reflexivity. Qed.

Lemma lookup_in {K V} dec (k : K) (v : V) m : lookup dec k m = Some v -> In (k, v) m.
Proof.
  induction m as [|[k' v'] m IH]; [discriminate|]. rewrite lookup_cons. destruct (dec k k') as [->|]; intro h.
  - left. congruence.
  - right. auto.
Qed.

Local Opaque new.
Lemma new_inv : inv new.
Proof.
  assert (hc := check_new_ok). unfold check_new in hc. apply andb_true_iff in hc. destruct hc as [h1 h2].
  rewrite forallb_forall in h1, h2.
  assert (hlen : length (names new) = 100%nat) by (vm_compute; reflexivity).
  assert (hid : forall id, 1 <= id <= 100 -> exists s, name_of new id = Some (NUtf8 s) /\
     (96 <= id -> s = []) /\ (id < 96 -> lookup bytes_dec s (rev new) = Some id)).
  { intros id hr. assert (hi : In (Z.to_nat id) (seq 1 100)) by (apply in_seq; lia).
    specialize (h1 _ hi). rewrite Z2Nat.id in h1 by lia. destruct (name_of new id) as [[s|]|]; try discriminate.
    exists s. split; [reflexivity|]. destruct (Z.leb_spec 96 id).
    - destruct s; [|discriminate]. split; [auto|lia].
    - destruct (lookup bytes_dec s (rev new)) as [j|]; [|discriminate]. apply Z.eqb_eq in h1. subst. split; [lia|auto]. }
  assert (hr : forall id n, name_of new id = Some n -> 1 <= id <= 100).
  { intros id n hn. apply name_of_range in hn. unfold zlen in hn. rewrite hlen in hn. lia. }
  assert (hrb : revb new = []) by (vm_compute; reflexivity).
  assert (hes : encs new = []) by (vm_compute; reflexivity).
  constructor.
  - unfold zlen. rewrite hlen. split; [lia|]. reflexivity.
  - intros s id hl. apply lookup_in in hl. specialize (h2 _ hl). cbn [fst snd] in h2.
    apply andb_true_iff in h2. destruct h2 as [a b]. apply Z.ltb_lt in b. unfold unnamed.
    destruct (name_of new id) as [[s'|]|]; try discriminate. destruct (bytes_dec s' s); [|discriminate]. subst. split; [auto|lia].
  - rewrite hrb. discriminate.
  - intros id s hn hu. destruct (hid id (hr _ _ hn)) as (s' & e & _ & hx). rewrite e in hn.
    assert (s = s') by congruence. subst. apply hx. assert (hh := hr _ _ e). unfold unnamed in hu. lia.
  - intros id b hn. destruct (hid id (hr _ _ hn)) as (s' & e & _). congruence.
  - rewrite hes. discriminate.
  - intros id hu. unfold unnamed in hu. destruct (hid id) as (s & e & hz & _); [lia|]. rewrite e, hz; auto; lia.
Qed.

(** * The entry points *)
(** The slot of the table a String is interned under. *)
Definition slot := (list Z + list Z * encoding)%type.
Definition at_slot (t : table) (k : slot) : option Z :=
  match k with inl s => lookup bytes_dec s (rev t) | inr k => lookup key_dec k (revb t) end.
Definition get_slot (t : table) (k : slot) : option (table * Z) :=
  match k with inl s => get_id t s | inr (b, e) => get_id_from_bytes t b e end.

Lemma slot_step t k t' id : inv t -> get_slot t k = Some (t', id) ->
  inv t' /\ ext t t' /\ at_slot t' k = Some id.
Proof.
  intros I h. destruct k as [s|[b e]]; [apply get_id_step|apply get_bytes_step]; auto.
Qed.
Lemma slot_ext t t' k id : ext t t' -> at_slot t k = Some id -> at_slot t' k = Some id.
Proof. intros [r b _ _]. destruct k; cbn; auto. Qed.
Lemma slot_inj t k1 k2 id : inv t -> at_slot t k1 = Some id -> at_slot t k2 = Some id -> k1 = k2.
Proof.
  intros I h1 h2. destruct k1 as [s1|[b1 e1]], k2 as [s2|[b2 e2]]; cbn in *.
  - apply (i_rev _ I) in h1. apply (i_rev _ I) in h2. destruct h1, h2. congruence.
  - apply (i_rev _ I) in h1. apply (i_revb _ I) in h2. destruct h1, h2. congruence.
  - apply (i_revb _ I) in h1. apply (i_rev _ I) in h2. destruct h1, h2. congruence.
  - apply (i_revb _ I) in h1. apply (i_revb _ I) in h2. destruct h1, h2. congruence.
Qed.

(** Two requests, with any others in between: the same id exactly when the slots are. *)
Lemma slots_agree t k1 t1 id1 rs t2 k2 t3 id2 : inv t ->
  get_slot t k1 = Some (t1, id1) -> run t1 rs = Some t2 -> get_slot t2 k2 = Some (t3, id2) ->
  (id1 = id2 <-> k1 = k2).
Proof.
  intros I h1 hr h2. destruct (slot_step _ _ _ _ I h1) as (I1 & x1 & a1).
  destruct (run_step _ _ _ I1 hr) as [I2 x2]. destruct (slot_step _ _ _ _ I2 h2) as (I3 & x3 & a2).
  assert (a1' : at_slot t3 k1 = Some id1) by (eapply slot_ext; [|exact a1]; eapply ext_trans; eauto).
  split; intro e; subst.
  - eapply slot_inj; eauto.
  - congruence.
Qed.

Lemma slot_total t k : inv t -> get_slot t k = None -> zlen t = 2 ^ 32 - 1.
Proof.
  intros I h. assert (hl := i_len _ I). destruct k as [s|[b e]]; cbn in h.
  - unfold get_id in h. destruct (lookup _ _ _); [discriminate|]. destruct (fresh t) eqn:ef; [discriminate|]. apply fresh_none; [lia|exact ef].
  - unfold get_id_from_bytes in h. destruct (lookup _ _ _); [discriminate|]. destruct (fresh t) eqn:ef; [discriminate|]. apply fresh_none; [lia|exact ef].
Qed.

Lemma is_ascii_iff b : is_ascii b = true <-> Forall (fun x => x < 128) b.
Proof. unfold is_ascii. rewrite forallb_forall, Forall_forall. split; intros h x hx; specialize (h x hx); lia. Qed.

(** The slot of [to_sym]. *)
Definition sym_slot (b : list Z) (e : encoding) : slot :=
  if is_ascii b && ascii_compatible e then inl b
  else match e with
       | UsAscii | Utf8 => if utf8_ok b then inl b else inr (b, Ascii8)
       | _ => inr (b, e)
       end.
Lemma to_sym_slot t b e : to_sym t b e = get_slot t (sym_slot b e).
Proof.
  unfold to_sym, sym_slot. destruct (is_ascii b && ascii_compatible e) eqn:ea.
  - apply andb_true_iff in ea. destruct ea as [ea _]. apply is_ascii_iff in ea. apply utf8_ok_ascii in ea.
    rewrite ea. reflexivity.
  - destruct e; try reflexivity; destruct (utf8_ok b); reflexivity.
Qed.

Lemma wf_utf8 b e : well_formed b e -> e = Utf8 -> utf8_ok b = true.
Proof.
  intros (h & hu & _) e0. apply utf8_ok_iff; [|auto]. eapply Forall_impl; [|exact h]. cbn. lia.
Qed.

Lemma sym_slot_wf b e : well_formed b e ->
  sym_slot b e = if is_ascii b && ascii_compatible e then inl b
                 else match e with Utf8 => inl b | _ => inr (b, e) end.
Proof.
  intros hw. unfold sym_slot. destruct (is_ascii b && ascii_compatible e) eqn:ea; [reflexivity|].
  destruct e; try reflexivity.
  - rewrite (wf_utf8 _ _ hw eq_refl). reflexivity.
  - destruct hw as (_ & _ & hw). specialize (hw eq_refl). apply is_ascii_iff in hw. rewrite hw in ea. discriminate.
Qed.

Lemma same_name_slot b1 e1 b2 e2 : well_formed b1 e1 -> well_formed b2 e2 ->
  (sym_slot b1 e1 = sym_slot b2 e2 <-> same_name b1 e1 b2 e2).
Proof.
  intros w1 w2. rewrite (sym_slot_wf _ _ w1), (sym_slot_wf _ _ w2). unfold same_name.
  destruct (is_ascii b1 && ascii_compatible e1) eqn:a1; destruct (is_ascii b2 && ascii_compatible e2) eqn:a2.
  - apply andb_true_iff in a1, a2. destruct a1 as [a1 c1], a2 as [a2 c2]. apply is_ascii_iff in a1. split.
    + intro h. split; [congruence|]. right. auto.
    + intros [-> _]. reflexivity.
  - apply andb_true_iff in a1. destruct a1 as [a1 c1]. split.
    + destruct e2; try discriminate. intro h. assert (b1 = b2) by congruence. subst. rewrite a1 in a2. discriminate.
    + intros [-> [<-|(_ & _ & c)]]; [rewrite a1, c1 in a2|rewrite a1, c in a2]; discriminate.
  - apply andb_true_iff in a2. destruct a2 as [a2 c2]. split.
    + destruct e1; try discriminate. intro h. assert (b1 = b2) by congruence. subst. rewrite a2 in a1. discriminate.
    + intros [-> [->|(_ & c & _)]]; [rewrite a2, c2 in a1|rewrite a2, c in a1]; discriminate.
  - split.
    + intro h. assert (b1 = b2 /\ e1 = e2) as [-> ->].
      { destruct e1, e2; try discriminate; try (split; congruence); injection h; intros; subst; auto. }
      split; auto.
    + intros [-> [->|(h & c1 & c2)]]; [reflexivity|]. apply is_ascii_iff in h. rewrite h, c1 in a1. discriminate.
Qed.

(** * The statements *)
Lemma to_sym_iff rs0 t b1 e1 t1 id1 rs t2 b2 e2 t3 id2 :
  run new rs0 = Some t -> well_formed b1 e1 -> well_formed b2 e2 ->
  to_sym t b1 e1 = Some (t1, id1) -> run t1 rs = Some t2 -> to_sym t2 b2 e2 = Some (t3, id2) ->
  (id1 = id2 <-> same_name b1 e1 b2 e2).
Proof.
  intros h0 w1 w2 h1 hr h2. destruct (run_step _ _ _ new_inv h0) as [I _].
  rewrite to_sym_slot in h1, h2. rewrite (slots_agree _ _ _ _ _ _ _ _ _ I h1 hr h2). apply same_name_slot; auto.
Qed.

Lemma to_s_slot t k id : inv t -> at_slot t k = Some id ->
  sym_to_s t id = Some (match k with inl s => (s, if is_ascii s then UsAscii else Utf8) | inr (b, e) => (b, e) end).
Proof.
  intros I h. unfold sym_to_s. destruct k as [s|[b e]]; cbn in h.
  - destruct (i_rev _ I _ _ h) as [hn _]. rewrite hn. cbn [name_bytes].
    destruct (lookup Z.eq_dec id (encs t)) as [e|] eqn:ee; [|reflexivity].
    destruct (i_enc _ I _ _ ee) as [b hb]. congruence.
  - destruct (i_revb _ I _ _ _ h) as [hn he]. rewrite hn, he. reflexivity.
Qed.

Lemma to_sym_name rs0 t b e t1 id rs t2 :
  run new rs0 = Some t -> well_formed b e -> to_sym t b e = Some (t1, id) -> run t1 rs = Some t2 ->
  exists e', sym_to_s t2 id = Some (b, e') /\ same_name b e b e' /\ well_formed b e'.
Proof.
  intros h0 w h1 hr. destruct (run_step _ _ _ new_inv h0) as [I _].
  rewrite to_sym_slot in h1. destruct (slot_step _ _ _ _ I h1) as (I1 & x1 & a1).
  destruct (run_step _ _ _ I1 hr) as [I2 x2]. assert (a2 := slot_ext _ _ _ _ x2 a1).
  rewrite (to_s_slot _ _ _ I2 a2). rewrite (sym_slot_wf _ _ w). unfold same_name.
  destruct (is_ascii b && ascii_compatible e) eqn:ea.
  - apply andb_true_iff in ea. destruct ea as [ea ec]. rewrite ea. exists UsAscii. apply is_ascii_iff in ea.
    destruct w as (w & _ & _). repeat split; auto; try discriminate.
  - assert (hu : e = Utf8 -> is_ascii b = false) by (intros ->; rewrite andb_true_r in ea; exact ea).
    destruct e; try (eexists; split; [reflexivity|]; split; [auto|]; exact w).
    rewrite (hu eq_refl). exists Utf8. auto.
Qed.

Lemma to_sym_total rs0 t b e : run new rs0 = Some t -> to_sym t b e = None -> zlen t = 2 ^ 32 - 1.
Proof. intros h0 h. destruct (run_step _ _ _ new_inv h0) as [I _]. rewrite to_sym_slot in h. apply (slot_total _ _ I h). Qed.

Lemma names_stay rs0 t rs t' id n : run new rs0 = Some t -> run t rs = Some t' ->
  sym_to_s t id = Some n -> sym_to_s t' id = Some n.
Proof.
  intros h0 hr h. destruct (run_step _ _ _ new_inv h0) as [I _]. destruct (run_step _ _ _ I hr) as [_ x].
  unfold sym_to_s in *. destruct (name_of t id) as [m|] eqn:en; [|discriminate].
  rewrite (x_name _ _ x _ _ en), (x_enc _ _ x _ _ en). exact h.
Qed.

(** * Proper histories *)
Definition nonneg (b : list Z) := Forall (fun x => 0 <= x) b.
Lemma bytes_nonneg b : Forall (fun x => 0 <= x <= 255) b -> nonneg b.
Proof. apply Forall_impl. cbn. lia. Qed.

Record good (t : table) : Prop := {
  g_str : forall id s, name_of t id = Some (NUtf8 s) -> utf8_valid s;
  g_byt : forall b e id, lookup key_dec (b, e) (revb t) = Some id -> proper (RBytes b e)
}.

Lemma good_get_id t s t' id : good t -> utf8_valid s -> get_id t s = Some (t', id) -> good t'.
Proof.
  intros [gs gb] hs h. unfold get_id in h. destruct (lookup bytes_dec s (rev t)).
  { assert (t' = t) by congruence. subst. constructor; auto. }
  destruct (fresh t) as [i|]; [|discriminate].
  assert (e : t' = mk ((s, i) :: rev t) (revb t) (names t ++ [NUtf8 s]) (encs t)) by congruence. subst t'.
  constructor; [|exact gb]. intros j s0. rewrite name_of_app. destruct (j =? zlen t + 1); [|apply gs].
  intro e. assert (s0 = s) by congruence. subst. exact hs.
Qed.

Lemma name_display_valid t id n : inv t -> good t -> name_of t id = Some n -> utf8_valid (name_display n).
Proof.
  intros I G h. destruct n as [s|b]; cbn [name_display]; [exact (g_str _ G _ _ h)|].
  destruct (i_byt _ I _ _ h) as (e & _ & hl). apply (g_byt _ G) in hl. destruct hl as [hl _].
  apply lossy_is_valid, bytes_nonneg, hl.
Qed.

Lemma good_serve t r t' id : inv t -> good t -> proper r -> serve t r = Some (t', id) -> good t'.
Proof.
  intros I G hp h. destruct r; cbn [serve] in h.
  - eapply good_get_id; [exact G| |exact h]. apply hp.
  - unfold get_id_from_bytes in h. destruct (lookup key_dec (b, e) (revb t)).
    { assert (t' = t) by congruence. subst. exact G. }
    destruct (fresh t) as [i|]; [|discriminate].
    assert (et : t' = mk (rev t) (((b, e), i) :: revb t) (names t ++ [NBytes b]) ((i, e) :: encs t)) by congruence. subst t'.
    destruct G as [gs gb]. constructor.
    + intros j s0. rewrite name_of_app. destruct (j =? zlen t + 1); [discriminate|apply gs].
    + intros b0 e0 j. cbn [revb]. rewrite lookup_cons. destruct (key_dec (b0, e0) (b, e)) as [ek|]; [|apply gb].
      intros _. assert (b0 = b) by congruence. assert (e0 = e) by congruence. subst. exact hp.
  - unfold add_ivar_prefix in h. destruct (name_of t id0) as [n|] eqn:en; [|discriminate].
    eapply good_get_id; [exact G| |exact h]. apply valid_app; [|eapply name_display_valid; eauto].
    apply valid_ascii. repeat constructor; cbn; lia.
  - unfold add_assign_postfix in h. destruct (name_of t id0) as [n|] eqn:en; [|discriminate].
    eapply good_get_id; [exact G| |exact h]. apply valid_app; [eapply name_display_valid; eauto|].
    apply valid_ascii. repeat constructor; cbn; lia.
Qed.

Lemma good_run rs : forall t t', inv t -> good t -> Forall proper rs -> run t rs = Some t' -> good t'.
Proof.
  induction rs as [|r rs IH]; intros t t' I G hp h; cbn in h; [assert (t' = t) by congruence; subst; exact G|].
  destruct (serve t r) as [[t1 i]|] eqn:es; [|discriminate]. inversion hp; subst.
  destruct (serve_step _ _ _ _ I es) as [I1 _]. eapply IH; [exact I1| |eassumption|exact h].
  eapply (good_serve t r); eassumption.
Qed.

Lemma good_new : good new.
Proof.
  constructor.
  - intros id s h. assert (hr := name_of_range _ _ _ h). unfold zlen in hr.
    assert (hlen : length (names new) = 100%nat) by (vm_compute; reflexivity). rewrite hlen in hr.
    assert (hc : forallb (fun n => match n with NUtf8 s => forallb (fun x => (0 <=? x) && (x <? 128)) s | _ => true end) (names new) = true)
      by (vm_compute; reflexivity).
    rewrite forallb_forall in hc. assert (hi : In (NUtf8 s) (names new)).
    { unfold name_of in h. destruct (1 <=? id); [|discriminate]. eapply nth_error_In; eauto. }
    specialize (hc _ hi). cbn in hc. apply valid_ascii. apply Forall_forall. intros x hx.
    rewrite forallb_forall in hc. specialize (hc x hx). lia.
  - intros b e id. assert (hq : revb new = []) by (vm_compute; reflexivity). rewrite hq. discriminate.
Qed.

(** The slot a symbol sits in, read back from its name. *)
Lemma to_s_back rs t id n : run new rs = Some t -> Forall proper rs -> ~ unnamed id -> sym_to_s t id = Some n ->
  at_slot t (sym_slot (fst n) (snd n)) = Some id /\ well_formed (fst n) (snd n).
Proof.
  intros h0 hp hu hn. destruct (run_step _ _ _ new_inv h0) as [I _].
  assert (G := good_run _ _ _ new_inv good_new hp h0).
  unfold sym_to_s in hn. destruct (name_of t id) as [[s|b]|] eqn:en; [| |discriminate].
  - assert (hs := i_str _ I _ _ en hu). destruct (lookup Z.eq_dec id (encs t)) as [e|] eqn:ee.
    { destruct (i_enc _ I _ _ ee) as [b hb']. congruence. }
    assert (nn : n = (s, if is_ascii s then UsAscii else Utf8)) by (cbn in hn; congruence). subst n. cbn [fst snd] in *.
    assert (hv := g_str _ G _ _ en). assert (hw : well_formed s (if is_ascii s then UsAscii else Utf8)).
    { split; [apply valid_bytes; exact hv|]. split; [auto|]. destruct (is_ascii s) eqn:ea; [|discriminate]. intros _. apply is_ascii_iff. exact ea. }
    split; [|exact hw]. rewrite (sym_slot_wf _ _ hw). destruct (is_ascii s); exact hs.
  - destruct (i_byt _ I _ _ en) as (e & he & hl). rewrite he in hn. cbn in hn.
    assert (nn : n = (b, e)) by congruence. subst n. cbn [fst snd] in *.
    destruct (g_byt _ G _ _ _ hl) as (h1 & h2 & h3 & h4).
    assert (hw : well_formed b e) by (split; [exact h1|]; split; intro; congruence).
    split; [|exact hw]. rewrite (sym_slot_wf _ _ hw).
    destruct (is_ascii b && ascii_compatible e) eqn:ea.
    { apply andb_true_iff in ea. destruct ea as [ea ec]. apply is_ascii_iff in ea. tauto. }
    destruct e; try exact hl. congruence.
Qed.

(** Asking a symbol for its name and interning that gives the symbol back. *)
Lemma name_to_sym rs t id n : run new rs = Some t -> Forall proper rs -> ~ unnamed id -> sym_to_s t id = Some n ->
  to_sym t (fst n) (snd n) = Some (t, id).
Proof.
  intros h0 hp hu hn. destruct (to_s_back _ _ _ _ h0 hp hu hn) as [h _]. rewrite to_sym_slot.
  destruct (sym_slot (fst n) (snd n)) as [s|[b e]]; cbn in *.
  - unfold get_id. rewrite h. reflexivity.
  - unfold get_id_from_bytes. rewrite h. reflexivity.
Qed.

(** All symbols but the five unnamed slots have different names. *)
Lemma all_symbols_distinct rs t id1 id2 n1 n2 : run new rs = Some t -> Forall proper rs ->
  ~ unnamed id1 -> ~ unnamed id2 -> sym_to_s t id1 = Some n1 -> sym_to_s t id2 = Some n2 ->
  same_name (fst n1) (snd n1) (fst n2) (snd n2) -> id1 = id2.
Proof.
  intros h0 hp u1 u2 h1 h2 hs. destruct (to_s_back _ _ _ _ h0 hp u1 h1) as [a1 w1].
  destruct (to_s_back _ _ _ _ h0 hp u2 h2) as [a2 w2]. apply (same_name_slot _ _ _ _ w1 w2) in hs.
  rewrite hs in a1. congruence.
Qed.
Lemma in_all_symbols t id : In id (all_symbols t) <-> exists n, sym_to_s t id = Some n.
Proof.
  unfold all_symbols. rewrite in_map_iff. split.
  - intros (k & <- & hk). apply in_seq in hk. destruct (name_of_some t (Z.of_nat k)) as [n hn]; [unfold zlen; lia|].
    unfold sym_to_s. rewrite hn. eauto.
  - intros [n hn]. unfold sym_to_s in hn. destruct (name_of t id) eqn:en; [|discriminate]. apply name_of_range in en.
    exists (Z.to_nat id). split; [lia|]. apply in_seq. unfold zlen in en. lia.
Qed.

(** Every entry point makes the request of [to_sym]. *)
Lemma literal_to_sym t s e : well_formed s e -> ascii_compatible e = true -> symbol_literal t s e = to_sym t s e.
Proof.
  intros hw hc. rewrite to_sym_slot, (sym_slot_wf _ _ hw). unfold symbol_literal. rewrite hc, andb_true_r.
  destruct (is_ascii s) eqn:ea; [reflexivity|]. destruct hw as (_ & _ & hw).
  destruct e; try reflexivity. specialize (hw eq_refl). apply is_ascii_iff in hw. congruence.
Qed.
Lemma marshal_to_sym t b e : well_formed b e ->
  (Forall (fun x => x < 128) b -> ascii_compatible e = true -> e = Utf8 \/ e = UsAscii) ->
  marshal_intern t b e = to_sym t b e.
Proof.
  intros hw hx. rewrite to_sym_slot, (sym_slot_wf _ _ hw). unfold marshal_intern.
  destruct (is_ascii b) eqn:ea; cbn [andb].
  - apply is_ascii_iff in ea. assert (hu := utf8_ok_ascii _ ea). rewrite hu.
    destruct (ascii_compatible e) eqn:ec.
    + destruct (hx ea eq_refl) as [->| ->]; reflexivity.
    + destruct e; try discriminate; reflexivity.
  - destruct e; try reflexivity.
    + rewrite (wf_utf8 _ _ hw eq_refl). reflexivity.
    + destruct hw as (_ & _ & hw). specialize (hw eq_refl). apply is_ascii_iff in hw. congruence.
Qed.
Lemma to_sym_proper b e : well_formed b e -> exists r, proper r /\ forall t, to_sym t b e = serve t r.
Proof.
  intros hw. assert (hs := sym_slot_wf _ _ hw). destruct (is_ascii b && ascii_compatible e) eqn:ea.
  - exists (RStr b). split; [|intro t; rewrite to_sym_slot, hs; reflexivity].
    apply andb_true_iff in ea. destruct ea as [ea _]. apply is_ascii_iff in ea. destruct hw as (hb & _). split; [exact hb|].
    apply valid_ascii. rewrite Forall_forall in *. intros x hx. specialize (ea x hx). specialize (hb x hx). cbn in *. lia.
  - destruct (enc_dec e Utf8) as [->|ne].
    + exists (RStr b). split; [|intro t; rewrite to_sym_slot, hs; reflexivity]. destruct hw as (hb & hu & _). split; auto.
    + exists (RBytes b e). split.
      * destruct hw as (hb & _ & hus). split; [exact hb|]. split; [exact ne|]. split.
        { intros ->. specialize (hus eq_refl). apply is_ascii_iff in hus. rewrite hus in ea. discriminate. }
        { intros [h1 h2]. apply is_ascii_iff in h1. rewrite h1, h2 in ea. discriminate. }
      * intro t. rewrite to_sym_slot, hs. destruct e; try reflexivity. congruence.
Qed.

(** * Reserved ids, locks, ivar names *)
Lemma reserved rs t s id : run new rs = Some t -> In (s, id) (presets ++ special_gvars) ->
  get_id t (bs s) = Some (t, id).
Proof.
  intros h0 hi. destruct (run_step _ _ _ new_inv h0) as [I x].
  assert (hc : forallb (fun p => match lookup bytes_dec (bs (fst p)) (rev new) with Some j => j =? snd p | None => false end)
                 (presets ++ special_gvars) = true) by (vm_compute; reflexivity).
  rewrite forallb_forall in hc. specialize (hc _ hi). cbn [fst snd] in hc.
  destruct (lookup bytes_dec (bs s) (rev new)) as [j|] eqn:el; [|discriminate]. apply Z.eqb_eq in hc. subst j.
  apply (x_rev _ _ x) in el. unfold get_id. rewrite el. reflexivity.
Qed.

Lemma special_iff rs t s t' id : run new rs = Some t -> get_id t s = Some (t', id) ->
  (is_special_gvar id = true <-> exists g, In g (map fst special_gvars) /\ s = bs g).
Proof.
  intros h0 h. destruct (run_step _ _ _ new_inv h0) as [I x].
  destruct (get_id_step _ _ _ _ I h) as (I' & x' & hl). split.
  - intro hsp. unfold is_special_gvar in hsp. apply andb_true_iff in hsp. rewrite !Z.leb_le in hsp.
    assert (hc : forallb (fun p => match name_of new (snd p) with Some (NUtf8 s) => if bytes_dec s (bs (fst p)) then true else false | _ => false end)
       special_gvars = true) by (vm_compute; reflexivity).
    assert (hids : map snd special_gvars = map Z.of_nat (seq 80 16)) by (vm_compute; reflexivity).
    assert (hi : In id (map snd special_gvars)).
    { rewrite hids. apply in_map_iff. exists (Z.to_nat id). split; [lia|]. apply in_seq. lia. }
    apply in_map_iff in hi. destruct hi as ([g j] & e & hi). cbn in e. subst j.
    rewrite forallb_forall in hc. specialize (hc _ hi). cbn [fst snd] in hc.
    destruct (name_of new id) as [[s'|]|] eqn:en; try discriminate. destruct (bytes_dec s' (bs g)); [|discriminate]. subst s'.
    exists g. split; [apply in_map_iff; exists (g, id); auto|].
    apply (x_name _ _ x) in en. apply (x_name _ _ x') in en. destruct (i_rev _ I' _ _ hl) as [hn _]. congruence.
  - intros (g & hg & ->). apply in_map_iff in hg. destruct hg as ([g' j] & e & hi). cbn in e. subst g'.
    rewrite (reserved rs t g j h0) in h by (apply in_or_app; auto). assert (j = id) by congruence. subst j.
    assert (hids : forallb (fun p => is_special_gvar (snd p)) special_gvars = true) by (vm_compute; reflexivity).
    rewrite forallb_forall in hids. exact (hids _ hi).
Qed.

Lemma locked_ok rs1 t1 rs2 t2 s : run new rs1 = Some t1 -> run t1 rs2 = Some t2 ->
  get_id_locked t1 t2 s = get_id t2 s.
Proof.
  intros h1 h2. destruct (run_step _ _ _ new_inv h1) as [I1 _]. destruct (run_step _ _ _ I1 h2) as [I2 x].
  unfold get_id_locked, get_id. destruct (lookup bytes_dec s (rev t1)) as [i|] eqn:e; [|reflexivity].
  rewrite (x_rev _ _ x _ _ e). reflexivity.
Qed.

Lemma ivar_inj rs t id1 id2 s1 s2 t1 i1 rs' t2 t3 i2 : run new rs = Some t ->
  name_of t id1 = Some (NUtf8 s1) -> ~ unnamed id1 -> name_of t2 id2 = Some (NUtf8 s2) -> ~ unnamed id2 ->
  add_ivar_prefix t id1 = Some (t1, i1) -> run t1 rs' = Some t2 -> add_ivar_prefix t2 id2 = Some (t3, i2) ->
  (i1 = i2 <-> id1 = id2).
Proof.
  intros h0 n1 u1 n2 u2 a1 hr a2. destruct (run_step _ _ _ new_inv h0) as [I _].
  unfold add_ivar_prefix in a1, a2. rewrite n1 in a1. rewrite n2 in a2. cbn [name_display] in *.
  rewrite (slots_agree t (inl (bs "@" ++ s1)) t1 i1 rs' t2 (inl (bs "@" ++ s2)) t3 i2 I a1 hr a2).
  destruct (get_id_step _ _ _ _ I a1) as (I1 & x1 & _). destruct (run_step _ _ _ I1 hr) as [I2 x2].
  apply (x_name _ _ (ext_trans _ _ _ x1 x2)) in n1. split.
  - intro e. assert (es : bs "@" ++ s1 = bs "@" ++ s2) by congruence. apply app_inv_head in es. subst s2.
    apply (i_str _ I2) in n1; [|exact u1]. apply (i_str _ I2) in n2; [|exact u2]. congruence.
  - intros ->. congruence.
Qed.

Lemma ascii_compatible_iff e : ascii_compatible e = true <-> ascii_superset e.
Proof.
  unfold ascii_superset; destruct e; cbn; split; intros h; try discriminate;
    try (split; [intuition discriminate|intros; discriminate]); try reflexivity;
    destruct h as [h1 h2]; try (exfalso; apply h1; auto 10; fail); exfalso; eapply h2; reflexivity.
Qed.
