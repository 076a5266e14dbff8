(** Proofs about the methods of Hash that are written in Ruby. *)
From Coq Require Import ZArith List Bool Lia.
From Verif Require Import StructModel DataModel DataSpec DataProofs HrbModel HrbSpec.
Import ListNotations.
Local Open Scope Z_scope.

Lemma mem_in : forall m l, mem m l = true <-> In m l.
Proof.
  intros m l; unfold mem; rewrite existsb_exists; split.
  - intros [x [H E]]; apply Z.eqb_eq in E; subst; exact H.
  - intros H; exists m; split; [exact H | apply Z.eqb_refl].
Qed.

Lemma mem_app : forall m a b, mem m (a ++ b) = mem m a || mem m b.
Proof. intros; apply existsb_app. Qed.

Lemma fetch_none : forall h m, mem m (keys h) = false -> fetch h m = None.
Proof.
  induction h as [|[x w] r IH]; intros m H; [reflexivity|]. cbn in H |- *.
  apply orb_false_iff in H; destruct H as [H1 H2]. rewrite Z.eqb_sym, H1; apply IH, H2.
Qed.

Lemma keys_store : forall h k v, keys (store h k v) = if mem k (keys h) then keys h else keys h ++ [k].
Proof.
  induction h as [|[x w] r IH]; intros k v; [reflexivity|]. cbn.
  rewrite (Z.eqb_sym k x). destruct (x =? k); [reflexivity|]. cbn. fold (keys (store r k v)); rewrite IH.
  unfold mem; fold (keys r). destruct (existsb (Z.eqb k) (keys r)); reflexivity.
Qed.

Lemma good_store : forall h k v, good h -> good (store h k v).
Proof.
  intros h k v N; unfold good; rewrite keys_store. destruct (mem k (keys h)) eqn:E; [exact N|].
  apply NoDup_rev in N. rewrite <- (rev_involutive (keys h ++ [k])). apply NoDup_rev.
  rewrite rev_app_distr; cbn. constructor; [|exact N].
  intros H; apply in_rev, mem_in in H; congruence.
Qed.

Lemma fetch_delete : forall h k m, fetch (delete h k) m = if k =? m then None else fetch h m.
Proof.
  induction h as [|[x w] r IH]; intros k m; cbn; [destruct (k =? m); reflexivity|].
  destruct (Z.eqb_spec x k) as [->|D]; cbn [negb].
  - fold (delete r k); rewrite IH. destruct (k =? m); reflexivity.
  - cbn. fold (delete r k); rewrite IH. destruct (Z.eqb_spec x m) as [->|]; [|reflexivity].
    destruct (Z.eqb_spec k m); [congruence | reflexivity].
Qed.

Lemma good_filter : forall p h, good h -> good (filter p h).
Proof.
  intros p h; unfold good, keys; induction h as [|e r IH]; intros N; [exact N|].
  inversion N as [|? ? Hx N']; subst. cbn. destruct (p e); [|apply IH, N']. cbn. constructor; [|apply IH, N'].
  intros H; apply Hx. apply in_map_iff in H; destruct H as [y [H1 H2]]. apply filter_In in H2.
  rewrite <- H1; apply in_map; tauto.
Qed.

(* ------------------------------------------------------------------ *)
(** ** transform_keys *)

Lemma fold_store_fetch : forall (g : Z -> Z) (pairs : hash) acc m,
  fetch (fold_left (fun acc e => store acc (g (fst e)) (snd e)) pairs acc) m
  = match last_of g pairs m with Some v => Some v | None => fetch acc m end.
Proof.
  intros g pairs; induction pairs as [|[k v] r IH]; intros acc m; [reflexivity|]. cbn.
  rewrite IH, fetch_store. destruct (last_of g r m); [reflexivity|]. destruct (g k =? m); reflexivity.
Qed.

Lemma fold_store_keys : forall (g : Z -> Z) (pairs : hash) acc,
  keys (fold_left (fun acc e => store acc (g (fst e)) (snd e)) pairs acc)
  = keys acc ++ firsts (keys acc) (map g (keys pairs)).
Proof.
  intros g pairs; induction pairs as [|[k v] r IH]; intros acc; [cbn; rewrite app_nil_r; reflexivity|]. cbn.
  rewrite IH, keys_store. fold (keys r). destruct (mem (g k) (keys acc)); [reflexivity|].
  rewrite <- app_assoc; reflexivity.
Qed.

Lemma fold_store_good : forall (g : Z -> Z) (pairs : hash) acc, good acc ->
  good (fold_left (fun acc e => store acc (g (fst e)) (snd e)) pairs acc).
Proof.
  intros g pairs; induction pairs as [|[k v] r IH]; intros acc N; [exact N|]. cbn. apply IH, good_store, N.
Qed.

Lemma transform_keys_eq : forall t blk h, t <> None \/ blk <> None ->
  transform_keys t blk h = Some (fold_left (fun acc e => store acc (new_key t blk (fst e)) (snd e)) h []).
Proof. intros [t|] [f|] h [H|H]; try reflexivity; congruence. Qed.

Lemma transform_keys_ok : forall t blk h, t <> None \/ blk <> None ->
  exists h', transform_keys t blk h = Some h' /\ good h' /\
  (forall m, fetch h' m = last_of (new_key t blk) h m) /\
  keys h' = firsts [] (map (new_key t blk) (keys h)).
Proof.
  intros t blk h H. rewrite (transform_keys_eq t blk h H). eexists; split; [reflexivity|]. split; [|split].
  - apply fold_store_good; constructor.
  - intros m; rewrite fold_store_fetch. destruct (last_of _ h m); reflexivity.
  - rewrite fold_store_keys; reflexivity.
Qed.

Lemma rekey_fetch : forall g pairs h made m, good pairs ->
  fetch (rekey g pairs h made) m
  = match last_of g pairs m with
    | Some v => Some v
    | None => if mem m (keys pairs) && negb (mem m made) then None else fetch h m
    end.
Proof.
  intros g pairs; induction pairs as [|[k v] r IH]; intros h made m N; [reflexivity|].
  inversion N as [|? ? Hx N']; subst. cbn [rekey last_of]. rewrite (IH _ _ m N').
  destruct (last_of g r m); [reflexivity|]. rewrite fetch_store.
  cbn [mem existsb keys map fst]. fold (mem m made). fold (keys r). fold (mem m (keys r)).
  rewrite (Z.eqb_sym m (g k)). destruct (g k =? m); [cbn; rewrite andb_false_r; reflexivity|]. cbn [orb].
  destruct (Z.eqb_spec m k) as [->|D].
  - assert (E : mem k (keys r) = false).
    { destruct (mem k (keys r)) eqn:E; [|reflexivity]. apply mem_in in E; contradiction. }
    rewrite E; cbn [andb orb]. destruct (mem k made); cbn [negb]; [reflexivity|].
    rewrite fetch_delete, Z.eqb_refl; reflexivity.
  - cbn [orb]. destruct (mem m (keys r) && negb (mem m made)); [reflexivity|].
    destruct (mem k made); [reflexivity|]. rewrite fetch_delete.
    destruct (Z.eqb_spec k m); [congruence | reflexivity].
Qed.

Lemma rekey_good : forall g pairs h made, good h -> good (rekey g pairs h made).
Proof.
  intros g pairs; induction pairs as [|[k v] r IH]; intros h made N; [exact N|]. cbn. apply IH, good_store.
  destruct (mem k made); [exact N | apply good_filter, N].
Qed.

(** transform_keys! leaves the mapping that transform_keys answers. *)
Lemma bang_ok : forall t blk h, good h -> t <> None \/ blk <> None ->
  exists h', transform_keys_bang t blk h = Some h' /\ good h' /\ forall m, fetch h' m = last_of (new_key t blk) h m.
Proof.
  intros t blk h N H. exists (rekey (new_key t blk) h h []); split; [|split].
  - destruct t; destruct blk; try reflexivity. destruct H; congruence.
  - apply rekey_good, N.
  - intros m; rewrite (rekey_fetch _ _ _ _ _ N). destruct (last_of _ h m); [reflexivity|].
    destruct (mem m (keys h)) eqn:E; [reflexivity | apply fetch_none, E].
Qed.

(** Keys that stay apart keep all pairs in order. *)
Lemma firsts_nodup : forall l seen, NoDup l -> (forall x, In x l -> ~ In x seen) -> firsts seen l = l.
Proof.
  induction l as [|x r IH]; intros seen N D; [reflexivity|]. cbn.
  inversion N as [|? ? Hx N']; subst.
  destruct (mem x seen) eqn:E; [apply mem_in in E; destruct (D x (or_introl eq_refl) E)|].
  f_equal; apply IH; [exact N'|]. intros y Hy Q. apply in_app_iff in Q; destruct Q as [Q|[<-|[]]].
  - exact (D y (or_intror Hy) Q).
  - contradiction.
Qed.

Lemma store_new : forall h k v, mem k (keys h) = false -> store h k v = h ++ [(k, v)].
Proof.
  induction h as [|[x w] r IH]; intros k v H; [reflexivity|]. cbn in H |- *.
  apply orb_false_iff in H; destruct H as [H1 H2]. rewrite Z.eqb_sym, H1, IH by exact H2; reflexivity.
Qed.

Lemma fold_store_fresh : forall (g : Z -> Z) (pairs : hash) acc, NoDup (keys acc ++ map g (keys pairs)) ->
  fold_left (fun acc e => store acc (g (fst e)) (snd e)) pairs acc
  = acc ++ map (fun e => (g (fst e), snd e)) pairs.
Proof.
  intros g pairs; induction pairs as [|[k v] r IH]; intros acc N; [cbn; rewrite app_nil_r; reflexivity|]. cbn in N |- *.
  assert (E : mem (g k) (keys acc) = false).
  { destruct (mem (g k) (keys acc)) eqn:E; [|reflexivity]. apply mem_in in E.
    apply NoDup_remove_2 in N. destruct N; apply in_app_iff; left; exact E. }
  rewrite (store_new acc (g k) v E), IH.
  - rewrite <- app_assoc; reflexivity.
  - unfold keys at 1; rewrite map_app; cbn. rewrite <- app_assoc; exact N.
Qed.

Lemma transform_keys_injective : forall t blk h, t <> None \/ blk <> None -> NoDup (map (new_key t blk) (keys h)) ->
  transform_keys t blk h = Some (map (fun e => (new_key t blk (fst e), snd e)) h).
Proof.
  intros t blk h H N. rewrite (transform_keys_eq t blk h H). f_equal. apply (fold_store_fresh (new_key t blk) h []). exact N.
Qed.

Lemma rehash_ok : forall h, good h -> rehash h = h.
Proof.
  intros h N; unfold rehash. rewrite (fold_store_fresh (fun k => k) h []); [|rewrite map_id; exact N].
  cbn. rewrite (map_ext _ (fun e => e)); [apply map_id | intros [k v]; reflexivity].
Qed.

(* ------------------------------------------------------------------ *)
(** ** slice, except, compact *)

Lemma slice_acc : forall h ks acc m, 
  fetch (fold_left (fun acc k => match fetch h k with Some v => store acc k v | None => acc end) ks acc) m
  = if mem m ks then match fetch h m with Some v => Some v | None => fetch acc m end else fetch acc m.
Proof.
  intros h ks; induction ks as [|k r IH]; intros acc m; [reflexivity|]. cbn. rewrite IH. fold (mem m r).
  destruct (Z.eqb_spec m k) as [->|D]; cbn [orb].
  - destruct (fetch h k) as [v|]; [rewrite fetch_store, Z.eqb_refl; destruct (mem k r); reflexivity|].
    destruct (mem k r); reflexivity.
  - destruct (fetch h k) as [v|]; [|reflexivity]. rewrite fetch_store.
    destruct (Z.eqb_spec k m); [congruence | reflexivity].
Qed.

Lemma slice_keys : forall h ks acc,
  keys (fold_left (fun acc k => match fetch h k with Some v => store acc k v | None => acc end) ks acc)
  = keys acc ++ firsts (keys acc) (filter (has h) ks).
Proof.
  intros h ks; induction ks as [|k r IH]; intros acc; [cbn; rewrite app_nil_r; reflexivity|]. cbn. rewrite IH.
  unfold has at 2. destruct (fetch h k) as [v|]; [|reflexivity]. cbn. rewrite keys_store.
  destruct (mem k (keys acc)); [reflexivity | rewrite <- app_assoc; reflexivity].
Qed.

Lemma slice_ok : forall h ks,
  (forall m, fetch (slice h ks) m = if mem m ks then fetch h m else None) /\
  keys (slice h ks) = firsts [] (filter (has h) ks).
Proof.
  intros h ks; split.
  - intros m; unfold slice; rewrite slice_acc. destruct (mem m ks); [|reflexivity]. destruct (fetch h m); reflexivity.
  - unfold slice; rewrite slice_keys; reflexivity.
Qed.

Lemma except_ok : forall ks h, except h ks = filter (fun e => negb (mem (fst e) ks)) h.
Proof.
  unfold except; induction ks as [|k r IH]; intros h; cbn [fold_left].
  - cbn; induction h as [|e t IH]; [reflexivity|]. cbn. f_equal; exact IH.
  - rewrite IH. unfold delete. clear IH. induction h as [|e t IH]; [reflexivity|]. cbn.
    destruct (fst e =? k); cbn [negb orb]; [exact IH|]. cbn. fold (mem (fst e) r).
    destruct (mem (fst e) r); cbn [negb]; rewrite IH; reflexivity.
Qed.

Lemma keys_filter_in : forall p h m, In m (keys (filter p h)) -> In m (keys h).
Proof.
  intros p h m H; unfold keys in *; apply in_map_iff in H; destruct H as [e [H1 H2]]; apply filter_In in H2.
  rewrite <- H1; apply in_map; tauto.
Qed.

Lemma compact_ok : forall h, good h -> compact h = filter (fun e => negb (is_nil (snd e))) h.
Proof.
  intros h N; unfold compact.
  assert (G : forall h acc, NoDup (keys acc ++ keys h) ->
    fold_left (fun acc e => if is_nil (snd e) then acc else store acc (fst e) (snd e)) h acc
    = acc ++ filter (fun e => negb (is_nil (snd e))) h).
  { clear h N. induction h as [|[k v] r IH]; intros acc N; [cbn; rewrite app_nil_r; reflexivity|]. cbn in N |- *.
    destruct (is_nil v) eqn:E; cbn [negb].
    - apply IH. apply NoDup_remove_1 in N; exact N.
    - assert (M : mem k (keys acc) = false).
      { destruct (mem k (keys acc)) eqn:M; [|reflexivity]. apply mem_in in M.
        apply NoDup_remove_2 in N. destruct N; apply in_app_iff; left; exact M. }
      rewrite (store_new acc k v M), IH; [rewrite <- app_assoc; reflexivity|].
      unfold keys at 1; rewrite map_app; cbn. rewrite <- app_assoc; exact N. }
  exact (G h [] N).
Qed.

Lemma nil_keys : forall h e, good h -> In e h -> mem (fst e) (keys (filter (fun e => is_nil (snd e)) h)) = is_nil (snd e).
Proof.
  intros h e; unfold good; induction h as [|x r IH]; intros N H; [destruct H|].
  cbn in N; inversion N as [|? ? Hx N']; subst. cbn. destruct H as [->|H].
  - destruct (is_nil (snd e)) eqn:E; cbn; [rewrite Z.eqb_refl; reflexivity|].
    change (mem (fst e) (keys (filter (fun e => is_nil (snd e)) r)) = false). clear IH.
    destruct (mem (fst e) (keys (filter (fun e => is_nil (snd e)) r))) eqn:M; [|reflexivity].
    apply mem_in, keys_filter_in in M. contradiction.
  - assert (D : fst e =? fst x = false).
    { apply Z.eqb_neq; intros Q; apply Hx; rewrite <- Q; apply in_map, H. }
    destruct (is_nil (snd x)); cbn; rewrite ?D; cbn [orb]; apply IH; assumption.
Qed.

Lemma compact_bang_ok : forall h, good h ->
  compact_bang h = if existsb (fun e => is_nil (snd e)) h then Some (filter (fun e => negb (is_nil (snd e))) h) else None.
Proof.
  intros h N; unfold compact_bang.
  assert (E : existsb (fun e => is_nil (snd e)) h = match keys (filter (fun e => is_nil (snd e)) h) with [] => false | _ => true end).
  { clear N; induction h as [|x r IH]; [reflexivity|]. cbn. destruct (is_nil (snd x)); [reflexivity | exact IH]. }
  assert (F : fold_left delete (keys (filter (fun e => is_nil (snd e)) h)) h = filter (fun e => negb (is_nil (snd e))) h).
  { fold (except h (keys (filter (fun e => is_nil (snd e)) h))). rewrite except_ok. apply filter_ext_in.
    intros e He; rewrite (nil_keys h e N He); reflexivity. }
  rewrite E. destruct (keys (filter (fun e => is_nil (snd e)) h)); [reflexivity | f_equal; exact F].
Qed.

(* ------------------------------------------------------------------ *)
(** ** transform_values *)

Lemma set_at_app : forall a k w b v, set_at (a ++ (k, w) :: b) (length a) v = a ++ (k, v) :: b.
Proof. induction a as [|[x y] r IH]; intros k w b v; cbn; [reflexivity | rewrite IH; reflexivity]. Qed.

Lemma transform_values_ok : forall f h, transform_values f h = map (fun e => (fst e, f (snd e))) h.
Proof.
  intros f h; unfold transform_values.
  assert (G : forall b a, fold_left (fun acc i => set_at acc i (f (value_at acc i))) (seq (length a) (length b)) (a ++ b)
    = a ++ map (fun e => (fst e, f (snd e))) b).
  { induction b as [|[k w] r IH]; intros a; [reflexivity|]. cbn [length seq fold_left].
    rewrite set_at_app. unfold value_at. rewrite nth_error_app2 by lia. rewrite Nat.sub_diag. cbn [nth_error snd map fst].
    replace (a ++ (k, f w) :: r) with ((a ++ [(k, f w)]) ++ r) by (rewrite <- app_assoc; reflexivity).
    replace (S (length a)) with (length (a ++ [(k, f w)])) by (rewrite app_length; cbn; lia).
    rewrite IH, <- app_assoc; reflexivity. }
  exact (G h []).
Qed.

(* ------------------------------------------------------------------ *)
(** ** min_by *)

Lemma min_loop_ok : forall (g : Z * val -> Z) r before e mid,
  (forall x, In x before -> g e < g x) -> (forall x, In x mid -> g e <= g x) ->
  exists e', min_loop (fun x => Some (g x)) r (Some e) (Some (g e)) = Val (Some e') /\ least g (before ++ e :: mid ++ r) e'.
Proof.
  intros g r; induction r as [|x r IH]; intros before e mid H1 H2.
  - exists e; split; [reflexivity|]. exists before, mid; rewrite app_nil_r; auto.
  - cbn. destruct (Z.compare_spec (g x) (g e)) as [E|E|E].
    + destruct (IH before e (mid ++ [x]) H1) as [e' [A B]].
      { intros y Hy; apply in_app_iff in Hy; destruct Hy as [Hy|[<-|[]]]; [apply H2, Hy | lia]. }
      exists e'; split; [exact A|]. rewrite <- app_assoc in B; exact B.
    + destruct (IH (before ++ e :: mid) x []) as [e' [A B]].
      { intros y Hy; apply in_app_iff in Hy; destruct Hy as [Hy|[<-|Hy]]; [specialize (H1 y Hy); lia | lia | specialize (H2 y Hy); lia]. }
      { intros y []. }
      exists e'; split; [exact A|]. cbn [app] in B. rewrite <- app_assoc in B; exact B.
    + destruct (IH before e (mid ++ [x]) H1) as [e' [A B]].
      { intros y Hy; apply in_app_iff in Hy; destruct Hy as [Hy|[<-|[]]]; [apply H2, Hy | lia]. }
      exists e'; split; [exact A|]. rewrite <- app_assoc in B; exact B.
Qed.

Lemma min_by_ok : forall g h, h <> [] -> exists e, min_by (fun x => Some (g x)) h = Val (Some e) /\ least g h e.
Proof.
  intros g [|e r] H; [congruence|]. unfold min_by; cbn.
  apply (min_loop_ok g r [] e []); intros x [].
Qed.

Lemma min_ruby : forall g r entry,
  ruby_min_loop (fun x => Some (g x)) r entry = min_loop (fun x => Some (g x)) r (Some entry) (Some (g entry)).
Proof.
  intros g r; induction r as [|x r IH]; intros entry; [reflexivity|]. cbn.
  destruct (g x ?= g entry); apply IH.
Qed.

Lemma min_by_ruby : forall g h, min_by (fun x => Some (g x)) h = ruby_min_by (fun x => Some (g x)) h.
Proof. intros g [|e r]; [reflexivity|]. cbn. rewrite min_ruby; reflexivity. Qed.

(* ------------------------------------------------------------------ *)
(** ** What does not hold *)

Lemma min_nil_bad : ~ (forall f h, good h -> min_by f h = ruby_min_by f h).
Proof.
  intros H. specialize (H (fun _ => None) [(1, VInt 5); (2, VInt 6)]).
  assert (N : good [(1, VInt 5); (2, VInt 6)]) by (unfold good; repeat constructor; cbn; intuition lia).
  specialize (H N). discriminate H.
Qed.

Lemma min_mixed_bad : ~ (forall f h v, good h -> min_by f h = Val v -> ruby_min_by f h = Val v).
Proof.
  intros H. specialize (H (fun e => if fst e =? 1 then None else Some 0) [(1, VInt 5); (2, VInt 6)] (Some (2, VInt 6))).
  assert (N : good [(1, VInt 5); (2, VInt 6)]) by (unfold good; repeat constructor; cbn; intuition lia).
  specialize (H N eq_refl). discriminate H.
Qed.
