(** Proofs about Data. *)
From Coq Require Import ZArith List Bool Lia.
From Verif Require Import StructModel StructSpec StructProofs DataModel DataSpec.
Import ListNotations.
Local Open Scope Z_scope.

Lemma fetch_store : forall h k v m, fetch (store h k v) m = if k =? m then Some v else fetch h m.
Proof.
  induction h as [|[x w] r IH]; intros k v m; [reflexivity|]. cbn.
  destruct (Z.eqb_spec x k) as [->|N]; cbn.
  - destruct (k =? m); reflexivity.
  - rewrite IH. destruct (Z.eqb_spec x m) as [->|]; [|reflexivity].
    destruct (Z.eqb_spec k m); [congruence | reflexivity].
Qed.

Definition strange (ms : list Z) (kw : list (key * val)) : bool :=
  existsb (fun e => negb (is_member ms (kname (fst e)))) kw.

Lemma all_named_tail : forall e kw, all_named (e :: kw) -> all_named kw.
Proof. intros e kw H k v Hi; exact (H k v (or_intror Hi)). Qed.

Lemma data_key_named : forall k v kw, all_named ((k, v) :: kw) -> data_key k = Val (kname k).
Proof. intros [m|m|n] v kw H; try reflexivity. destruct (H _ _ (or_introl eq_refl) n eq_refl). Qed.

Lemma normalize_ok : forall ms kw norm u, all_named kw ->
  exists h, normalize ms kw norm u = Val (h, u || strange ms kw) /\
  forall m, fetch h m = if is_member ms m then match given kw m with Some v => Some v | None => fetch norm m end
                        else fetch norm m.
Proof.
  intros ms kw; induction kw as [|[k v] r IH]; intros norm u A.
  - exists norm; split; [cbn; rewrite orb_false_r; reflexivity|].
    intros m; cbn; destruct (is_member ms m); reflexivity.
  - cbn [normalize]. rewrite (data_key_named k v r A). cbn [bind].
    destruct (is_member ms (kname k)) eqn:E.
    + destruct (IH (store norm (kname k) v) u (all_named_tail _ _ A)) as [h [H1 H2]].
      exists h; split.
      * rewrite H1. unfold strange; cbn [existsb fst]; rewrite E; reflexivity.
      * intros m; rewrite H2, fetch_store; cbn [given].
        destruct (Z.eqb_spec (kname k) m) as [<-|N].
        -- rewrite E; destruct (given r (kname k)); reflexivity.
        -- destruct (given r m); reflexivity.
    + destruct (IH norm true (all_named_tail _ _ A)) as [h [H1 H2]].
      exists h; split.
      * rewrite H1. unfold strange; cbn [existsb fst]; rewrite E; cbn; rewrite orb_true_r; reflexivity.
      * intros m; rewrite H2; cbn [given].
        destruct (is_member ms m) eqn:M; [|reflexivity].
        destruct (Z.eqb_spec (kname k) m) as [<-|N]; [congruence|].
        destruct (given r m); reflexivity.
Qed.

Lemma strange_known : forall ms kw, strange ms kw = false <-> known ms kw.
Proof.
  intros ms kw; unfold strange, known; induction kw as [|[k v] r IH]; cbn.
  - split; [intros _ k v [] | reflexivity].
  - rewrite orb_false_iff, IH, negb_false_iff, is_member_in. split.
    + intros [H1 H2] k' v' [E|E]; [inversion E; subst; exact H1 | exact (H2 k' v' E)].
    + intros H; split; [exact (H k v (or_introl eq_refl)) | intros k' v' E; exact (H k' v' (or_intror E))].
Qed.

(** What __data_values is. *)
Lemma data_values_eq : forall ms kw, all_named kw ->
  data_values ms kw
  = if forallb (fun m => match given kw m with Some _ => true | None => false end) ms && negb (strange ms kw)
    then Val (map (fun m => match given kw m with Some v => v | None => VNil end) ms) else Raise ArgErr.
Proof.
  intros ms kw A; unfold data_values.
  destruct (normalize_ok ms kw [] false A) as [h [H1 H2]]; rewrite H1; cbn [bind fst snd orb].
  assert (F : forall m, In m ms -> fetch h m = given kw m).
  { intros m Hm; rewrite H2. apply is_member_in in Hm; rewrite Hm. destruct (given kw m); reflexivity. }
  assert (E1 : forallb (has h) ms = forallb (fun m => match given kw m with Some _ => true | None => false end) ms).
  { clear - F. induction ms as [|x r IH]; [reflexivity|]. cbn.
    unfold has at 1; rewrite (F x (or_introl eq_refl)). f_equal; apply IH; intros m Hm; apply F; right; exact Hm. }
  assert (E2 : map (value h) ms = map (fun m => match given kw m with Some v => v | None => VNil end) ms).
  { apply map_ext_in; intros m Hm; unfold value; rewrite (F m Hm); reflexivity. }
  rewrite E1, E2; clear E1 E2. destruct (forallb _ ms); [|reflexivity]. destruct (strange ms kw); reflexivity.
Qed.

Lemma map_some : forall (ms : list Z) (f : Z -> option val) vs,
  map Some vs = map f ms <->
  forallb (fun m => match f m with Some _ => true | None => false end) ms = true
  /\ vs = map (fun m => match f m with Some v => v | None => VNil end) ms.
Proof.
  induction ms as [|x r IH]; intros f vs; cbn.
  - destruct vs; split; [split; reflexivity | reflexivity | discriminate | intros [_ H]; discriminate].
  - destruct vs as [|v vs]; cbn.
    + split; [discriminate | intros [_ H]; discriminate].
    + split.
      * intros H; injection H as H1 H2. apply IH in H2; destruct H2 as [H2 H3].
        destruct (f x); [|discriminate]. injection H1 as H1. split; [exact H2 | rewrite H1, H3; reflexivity].
      * intros [H1 H2]. apply andb_true_iff in H1; destruct H1 as [H0 H1]. injection H2 as H3 H4.
        destruct (f x); [|discriminate]. f_equal; [rewrite H3; reflexivity|]. apply IH; split; [exact H1 | exact H4].
Qed.

Lemma values_ok : forall ms kw vs, all_named kw -> (data_values ms kw = Val vs <-> determines ms kw vs).
Proof.
  intros ms kw vs A; rewrite (data_values_eq ms kw A); unfold determines.
  rewrite map_some, <- strange_known.
  destruct (forallb _ ms); destruct (strange ms kw); cbn [andb negb]; split;
    try discriminate; try (intros [H1 [H2 H3]]; discriminate); try (intros [H1 [H2 H3]]; congruence).
  intros H; inversion H; auto.
Qed.

Lemma values_error : forall ms kw, all_named kw -> (forall vs, ~ determines ms kw vs) -> data_values ms kw = Raise ArgErr.
Proof.
  intros ms kw A H. destruct (data_values ms kw) as [vs|e] eqn:E.
  - apply (values_ok ms kw vs A) in E. destruct (H vs E).
  - rewrite (data_values_eq ms kw A) in E. destruct (_ && _); [discriminate | symmetry; exact E].
Qed.

Lemma values_object : forall ms kw n v, In (KObj n, v) kw -> data_values ms kw = Raise TypeErr.
Proof.
  intros ms kw n v H; unfold data_values.
  assert (N : forall norm u, normalize ms kw norm u = Raise TypeErr).
  { induction kw as [|[k w] r IH]; intros norm u; [destruct H|].
    destruct H as [H|H]; [inversion H; reflexivity|]. cbn.
    destruct k as [m|m|x]; cbn; try reflexivity; destruct (is_member ms m); apply IH, H. }
  rewrite N; reflexivity.
Qed.

(* ------------------------------------------------------------------ *)
(** ** new *)

Lemma syms_named : forall h, all_named (syms h).
Proof.
  intros h k v H n E; subst k. unfold syms in H; apply in_map_iff in H; destruct H as [e [H _]]; discriminate.
Qed.

Lemma given_none : forall h m, ~ In m (map fst h) -> given (syms h) m = None.
Proof.
  induction h as [|[x w] r IH]; intros m H; [reflexivity|]. cbn in H |- *.
  rewrite IH by tauto. destruct (Z.eqb_spec x m); [tauto | reflexivity].
Qed.

Lemma combine_keys : forall (ms : list Z) (vs : list val), map fst (combine ms vs) = firstn (length vs) ms.
Proof.
  induction ms as [|x r IH]; intros vs; destruct vs; cbn; try reflexivity. rewrite IH; reflexivity.
Qed.

Lemma given_fetch : forall h m, NoDup (map fst h) -> given (syms h) m = fetch h m.
Proof.
  induction h as [|[x w] r IH]; intros m N; [reflexivity|]. cbn [syms map given fetch fst snd kname].
  inversion N as [|? ? Hx N']; subst. fold (syms r).
  destruct (Z.eqb_spec x m) as [->|D].
  - rewrite (given_none r m Hx); reflexivity.
  - rewrite (IH m N'). destruct (fetch r m); reflexivity.
Qed.

Lemma fetch_combine : forall ms vs, NoDup ms -> length vs = length ms -> map (fetch (combine ms vs)) ms = map Some vs.
Proof.
  induction ms as [|x r IH]; intros vs N L; destruct vs as [|v vs]; try discriminate; [reflexivity|].
  inversion N as [|? ? Hx N']; subst. cbn [combine map]. f_equal.
  - cbn; rewrite Z.eqb_refl; reflexivity.
  - rewrite <- (IH vs N') by (cbn in L; lia). apply map_ext_in; intros m Hm. cbn.
    destruct (Z.eqb_spec x m) as [->|_]; [contradiction | reflexivity].
Qed.

Lemma known_combine : forall ms (vs : list val), known ms (syms (combine ms vs)).
Proof.
  intros ms vs k v H; unfold syms in H; apply in_map_iff in H; destruct H as [[x w] [H Hi]].
  inversion H; subst; cbn. exact (in_combine_l _ _ _ _ Hi).
Qed.

(** Keywords that are to_h of an object make that object. *)
Lemma round_trip : forall ms slots, NoDup ms -> length slots = length ms ->
  data_new (base ms) [] (syms (data_h ms slots)) = Val slots.
Proof.
  intros ms vs N L; unfold data_new, base, init, data_h. apply values_ok; [apply syms_named|].
  split; [apply known_combine|]. rewrite <- (fetch_combine ms vs N L).
  apply map_ext; intros m; symmetry; apply given_fetch.
  rewrite combine_keys, L, firstn_all; exact N.
Qed.

Lemma positional : forall ms args, NoDup ms -> length args = length ms -> data_new (base ms) args [] = Val args.
Proof.
  intros ms args N L. pose proof (round_trip ms args N L) as R. destruct args as [|a r].
  - destruct ms; [exact R | discriminate].
  - unfold data_new. rewrite L. cbn [dmembers base]. rewrite Nat.eqb_refl. exact R.
Qed.

Lemma few_missing : forall ms args, NoDup ms -> (length args < length ms)%nat ->
  data_values ms (syms (combine ms args)) = Raise ArgErr.
Proof.
  intros ms args N L. apply values_error; [apply syms_named|]. intros vs [_ H].
  apply map_some in H; destruct H as [H _]. rewrite forallb_forall in H.
  destruct (nth_error ms (length args)) as [m|] eqn:E; [|apply nth_error_None in E; lia].
  specialize (H m (nth_error_In _ _ E)). rewrite given_none in H; [discriminate|].
  rewrite combine_keys. intros Hi. apply In_nth_error in Hi; destruct Hi as [i Hi].
  assert (Li : (i < length args)%nat).
  { assert (X : (i < length (firstn (length args) ms))%nat) by (apply nth_error_Some; congruence).
    rewrite firstn_length in X; lia. }
  assert (Y : nth_error ms i = Some m).
  { rewrite <- (firstn_skipn (length args) ms), nth_error_app1; [exact Hi | rewrite firstn_length; lia]. }
  assert (i = length args); [|lia].
  apply (proj1 (NoDup_nth_error ms) N); [lia | congruence].
Qed.

(** With the initialize of Data, new is Ruby's. *)
Lemma data_new_ok : forall ms args kw, NoDup ms -> data_new (base ms) args kw = ruby_data_new (base ms) args kw.
Proof.
  intros ms args kw N; unfold data_new, ruby_data_new. destruct args as [|a r]; [reflexivity|].
  destruct kw; [|reflexivity]. cbn [base dmembers init].
  destruct (Nat.eqb_spec (length (a :: r)) (length ms)) as [E|E];
    destruct (Nat.leb_spec (length (a :: r)) (length ms)); try lia; try reflexivity.
  symmetry; apply few_missing; [exact N | lia].
Qed.

(* ------------------------------------------------------------------ *)
(** ** with *)

Lemma merge_named : forall kw h rest, all_named kw -> exists h', merge h kw rest = syms h' ++ rest /\
  (forall m, fetch h' m = match given kw m with Some v => Some v | None => fetch h m end) /\
  (NoDup (map fst h) -> NoDup (map fst h')) /\
  (forall m, In m (map fst h') <-> In m (map fst h) \/ exists k v, In (k, v) kw /\ kname k = m).
Proof.
  assert (K : forall h k v m, In m (map fst (store h k v)) <-> In m (map fst h) \/ k = m).
  { induction h as [|[x w] r IH]; intros k v m; cbn; [tauto|].
    destruct (Z.eqb_spec x k) as [->|D]; cbn; [tauto|]. rewrite IH; tauto. }
  assert (D : forall h k v, NoDup (map fst h) -> NoDup (map fst (store h k v))).
  { induction h as [|[x w] r IH]; intros k v N; cbn; [repeat constructor; intros []|].
    inversion N as [|? ? Hx N']; subst.
    destruct (Z.eqb_spec x k) as [->|Q]; cbn; [constructor; assumption|].
    constructor; [rewrite K; intros [H|H]; [contradiction | congruence] | apply IH, N']. }
  induction kw as [|[k v] r IH]; intros h rest A.
  - exists h; repeat split; auto. intros [H|[k [v [[] _]]]]; exact H.
  - assert (M : merge h ((k, v) :: r) rest = merge (store h (kname k) v) r rest).
    { destruct k as [m|m|n]; try reflexivity. destruct (A _ _ (or_introl eq_refl) n eq_refl). }
    rewrite M. destruct (IH (store h (kname k) v) rest (all_named_tail _ _ A)) as [h' [H1 [H2 [H3 H4]]]].
    exists h'; repeat split.
    + exact H1.
    + intros m; rewrite H2, fetch_store; cbn [given]. destruct (given r m); [reflexivity|].
      destruct (kname k =? m); reflexivity.
    + intros N; apply H3, D, N.
    + intros H; apply H4 in H; destruct H as [H|[k' [v' [H E]]]].
      * apply K in H; destruct H as [H|H]; [left; exact H | right; exists k, v; split; [left; reflexivity | exact H]].
      * right; exists k', v'; split; [right; exact H | exact E].
    + intros H; apply H4. destruct H as [H|[k' [v' [[H|H] E]]]].
      * left; apply K; left; exact H.
      * inversion H; subst; left; apply K; right; reflexivity.
      * right; exists k', v'; split; [exact H | exact E].
Qed.

Lemma updated_none : forall ms slots, length slots = length ms -> updated ms slots [] = slots.
Proof.
  unfold updated; induction ms as [|x r IH]; intros slots L; destruct slots; try discriminate; [reflexivity|].
  cbn. f_equal; apply IH; cbn in L; lia.
Qed.

Lemma updated_fetch : forall ms slots kw, NoDup ms -> length slots = length ms ->
  map Some (updated ms slots kw)
  = map (fun m => match given kw m with Some v => Some v | None => fetch (combine ms slots) m end) ms.
Proof.
  unfold updated; induction ms as [|x r IH]; intros slots kw N L; destruct slots as [|v slots]; try discriminate; [reflexivity|].
  inversion N as [|? ? Hx N']; subst. cbn [combine map fst snd]. f_equal.
  - cbn; rewrite Z.eqb_refl; destruct (given kw x); reflexivity.
  - rewrite IH; [|exact N' | cbn in L; lia]. apply map_ext_in; intros m Hm. cbn.
    destruct (Z.eqb_spec x m) as [->|_]; [contradiction | reflexivity].
Qed.

Lemma with_ok : forall ms slots kw, NoDup ms -> length slots = length ms -> all_named kw -> known ms kw ->
  data_with (base ms) slots kw = Val (updated ms slots kw).
Proof.
  intros ms slots kw N L A K. destruct kw as [|e r]; [cbn; rewrite updated_none by exact L; reflexivity|].
  unfold data_with; cbn [base init dmembers]. unfold data_h.
  destruct (merge_named (e :: r) (combine ms slots) [] A) as [h [H1 [H2 [H3 H4]]]].
  rewrite H1, app_nil_r. assert (NK : NoDup (map fst (combine ms slots))).
  { rewrite combine_keys, L, firstn_all; exact N. }
  apply values_ok; [apply syms_named|]. split.
  - intros k v Hi. assert (Q : In (kname k) (map fst h)).
    { unfold syms in Hi; apply in_map_iff in Hi; destruct Hi as [[x w] [Hi Hj]]. inversion Hi; subst.
      apply (in_map fst) in Hj; exact Hj. }
    apply H4 in Q; destruct Q as [Q|[k' [v' [Q E]]]].
    + rewrite combine_keys, L, firstn_all in Q; exact Q.
    + rewrite <- E; exact (K k' v' Q).
  - rewrite (updated_fetch ms slots (e :: r) N L). apply map_ext; intros m.
    rewrite (given_fetch h m (H3 NK)), H2; reflexivity.
Qed.

Lemma with_unknown : forall ms slots kw, NoDup ms -> length slots = length ms -> all_named kw -> ~ known ms kw ->
  data_with (base ms) slots kw = Raise ArgErr.
Proof.
  intros ms slots kw N L A K. destruct kw as [|e r]; [destruct K; intros k v []|].
  unfold data_with; cbn [base init dmembers]. unfold data_h.
  destruct (merge_named (e :: r) (combine ms slots) [] A) as [h [H1 [H2 [H3 H4]]]].
  rewrite H1, app_nil_r. apply values_error; [apply syms_named|]. intros vs [Q _]. apply K.
  intros k v Hi. assert (X : In (kname k) (map fst h)) by (apply H4; right; exists k, v; split; [exact Hi | reflexivity]).
  apply in_map_iff in X; destruct X as [[x w] [X1 X2]]. cbn in X1; subst x.
  apply (Q (KSym (kname k)) w). unfold syms; apply in_map_iff. exists (kname k, w); split; [reflexivity | exact X2].
Qed.

(* ------------------------------------------------------------------ *)
(** ** deconstruct_keys *)

Lemma dec_ok : forall ms read keys, (forall k n, In k keys -> k <> KObj n) -> (length keys <= length ms)%nat ->
  deconstruct_keys ms read keys = Val (map (fun k => (k, read (kname k))) (leading ms keys)).
Proof.
  intros ms read keys A L; unfold deconstruct_keys.
  destruct (Nat.ltb_spec (length ms) (length keys)); [lia|]. clear L H.
  induction keys as [|k r IH]; [reflexivity|]. cbn [dec_loop leading].
  assert (K : data_key k = Val (kname k)).
  { destruct k as [m|m|n]; try reflexivity. destruct (A _ n (or_introl eq_refl) eq_refl). }
  rewrite K; cbn [bind]. destruct (is_member ms (kname k)); [|reflexivity].
  rewrite IH; [reflexivity|]. intros k' n H; exact (A k' n (or_intror H)).
Qed.

Lemma dec_many : forall ms read keys, (length ms < length keys)%nat -> deconstruct_keys ms read keys = Val [].
Proof.
  intros ms read keys L; unfold deconstruct_keys. destruct (Nat.ltb_spec (length ms) (length keys)); [reflexivity | lia].
Qed.

(* ------------------------------------------------------------------ *)
(** ** What does not hold *)

Lemma default_bad : ~ (forall c args kw, NoDup (dmembers c) -> data_new c args kw = ruby_data_new c args kw).
Proof.
  intros H. specialize (H (mkD [1; 2] with_default) [VInt 5] []).
  assert (N : NoDup (dmembers (mkD [1; 2] with_default))) by (repeat constructor; cbn; intuition lia).
  specialize (H N). discriminate H.
Qed.

Lemma dec_override_bad : ~ (forall ms slots read keys, NoDup ms -> length slots = length ms ->
  (length keys <= length ms)%nat -> (forall k n, In k keys -> k <> KObj n) ->
  deconstruct_keys ms read keys = Val (map (fun k => (k, value (data_h ms slots) (kname k))) (leading ms keys))).
Proof.
  intros H. specialize (H [1] [VInt 5] (fun _ => VInt 6) [KSym 1]).
  assert (N : NoDup [1]) by (repeat constructor; intros []).
  assert (A : forall k n, In k [KSym 1] -> k <> KObj n) by (intros k n [<-|[]]; discriminate).
  specialize (H N eq_refl (le_n 1) A). discriminate H.
Qed.
