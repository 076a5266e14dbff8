(** Proofs about sets. *)
From Coq Require Import ZArith List Bool Lia.
From Verif Require Import EnblModel EnblSpec EnblProofs SetModel SetSpec.
Import ListNotations.
Local Open Scope Z_scope.

(* ------------------------------------------------------------------ *)
(** ** The relation and membership *)

Lemma rel_refl {O : objects} i (a : V O) : rel i a a = true.
Proof. destruct i; [apply same_eq; reflexivity|apply eql_refl]. Qed.

Lemma rel_sym {O : objects} i (a b : V O) : rel i a b = rel i b a.
Proof.
  assert (H : forall a b : V O, rel i a b = true -> rel i b a = true).
  { intros x y H. destruct i; cbn in *; [apply same_eq; apply same_eq in H; congruence|].
    apply eql_sym. exact H. }
  destruct (rel i a b) eqn:E, (rel i b a) eqn:F; try reflexivity.
  - rewrite (H a b E) in F. exact F.
  - rewrite (H b a F) in E. discriminate E.
Qed.

Lemma rel_trans {O : objects} i (a b c : V O) : rel i a b = true -> rel i b c = true -> rel i a c = true.
Proof.
  destruct i; cbn; [|apply eql_trans]. intros H G. apply same_eq in H, G. apply same_eq. congruence.
Qed.

Lemma rel_left {O : objects} i (a b c : V O) : rel i a b = true -> rel i a c = rel i b c.
Proof.
  intros H. destruct (rel i b c) eqn:E; [apply (rel_trans i a b c H E)|].
  destruct (rel i a c) eqn:F; [|reflexivity].
  rewrite rel_sym in H. rewrite (rel_trans i b a c H F) in E. discriminate E.
Qed.

Lemma rel_same_eql {O : objects} i (a b : V O) : rel true a b = true -> rel i a b = true.
Proof. intros H. apply same_eq in H. subst. apply rel_refl. Qed.

Lemma mem_iff {O : objects} i (l : list (V O)) v : mem i l v = true <-> exists k, In k l /\ rel i k v = true.
Proof. apply existsb_exists. Qed.

Lemma mem_not {O : objects} i (l : list (V O)) v : mem i l v = false <-> forall k, In k l -> rel i k v = false.
Proof.
  split.
  - intros H k Hk. destruct (rel i k v) eqn:E; [|reflexivity].
    assert (G : mem i l v = true) by (apply mem_iff; eauto). congruence.
  - intros H. destruct (mem i l v) eqn:E; [|reflexivity]. apply mem_iff in E.
    destruct E as (k & Hk & G). rewrite (H k Hk) in G. discriminate G.
Qed.

Lemma mem_rel {O : objects} i (l : list (V O)) v w : rel i v w = true -> mem i l v = mem i l w.
Proof.
  intros H. unfold mem. induction l as [|x r IH]; [reflexivity|]. cbn. rewrite IH. f_equal.
  rewrite (rel_sym i x v), (rel_sym i x w). apply rel_left. exact H.
Qed.

Lemma mem_in {O : objects} i (l : list (V O)) v : In v l -> mem i l v = true.
Proof. intros H. apply mem_iff. exists v. split; [exact H|apply rel_refl]. Qed.

Lemma mem_app {O : objects} i (a b : list (V O)) v : mem i (a ++ b) v = mem i a v || mem i b v.
Proof. unfold mem. apply existsb_app. Qed.

Lemma ins_mem {O : objects} i (l : list (V O)) v w : mem i (ins i l v) w = mem i l w || rel i v w.
Proof.
  unfold ins. destruct (mem i l v) eqn:E.
  - destruct (rel i v w) eqn:F; [|rewrite orb_false_r; reflexivity].
    rewrite <- (mem_rel i l v w F), E. reflexivity.
  - rewrite mem_app. cbn. rewrite orb_false_r. reflexivity.
Qed.

Lemma ins_all_mem {O : objects} i vs : forall (l : list (V O)) w, mem i (ins_all i l vs) w = mem i l w || mem i vs w.
Proof.
  unfold ins_all. induction vs as [|v r IH]; intros l w; cbn [fold_left].
  - cbn. rewrite orb_false_r. reflexivity.
  - rewrite IH, ins_mem. cbn. rewrite orb_assoc. reflexivity.
Qed.

Lemma distinct_app {O : objects} i (a b : list (V O)) :
  distinct i (a ++ b) <-> distinct i a /\ distinct i b /\ forall x, In x a -> mem i b x = false.
Proof.
  induction a as [|x r IH]; cbn [app distinct].
  - split; [intros H; repeat split; [exact H|intros x []]|intros (_ & H & _); exact H].
  - rewrite IH, mem_app, orb_false_iff. cbn [In]. split.
    + intros ((H1 & H2) & H3 & H4 & H5). repeat split; auto. intros y [<-|Hy]; auto.
    + intros ((H1 & H2) & H3 & H4). repeat split; auto.
Qed.

Lemma ins_distinct {O : objects} i (l : list (V O)) v : distinct i l -> distinct i (ins i l v).
Proof.
  intros H. unfold ins. destruct (mem i l v) eqn:E; [exact H|].
  apply distinct_app. split; [exact H|]. split; [cbn; auto|].
  intros x Hx. cbn. rewrite orb_false_r, rel_sym. apply mem_not with (k := x) in E; assumption.
Qed.

Lemma ins_all_distinct {O : objects} i vs : forall (l : list (V O)), distinct i l -> distinct i (ins_all i l vs).
Proof.
  unfold ins_all. induction vs as [|v r IH]; intros l H; cbn [fold_left]; [exact H|].
  apply IH. apply ins_distinct. exact H.
Qed.

(** Distinct new elements are just put behind. *)
Lemma ins_all_fresh {O : objects} i vs : forall (l : list (V O)), distinct i (l ++ vs) -> ins_all i l vs = l ++ vs.
Proof.
  unfold ins_all. induction vs as [|v r IH]; intros l H; cbn [fold_left]; [rewrite app_nil_r; reflexivity|].
  assert (E : ins i l v = l ++ [v]).
  { unfold ins. apply distinct_app in H. destruct H as (_ & _ & H).
    destruct (mem i l v) eqn:E; [|reflexivity]. apply mem_iff in E. destruct E as (k & Hk & G).
    specialize (H k Hk). cbn in H. rewrite rel_sym, G in H. discriminate H. }
  rewrite E, IH; rewrite <- app_assoc; [reflexivity|exact H].
Qed.

Lemma filter_mem {O : objects} i (p : V O -> bool) (l : list (V O)) v :
  (forall a b, rel i a b = true -> p a = p b) -> mem i (filter p l) v = mem i l v && p v.
Proof.
  intros Hp. induction l as [|x r IH]; [reflexivity|]. cbn [filter].
  change (mem i (x :: r) v) with (rel i x v || mem i r v).
  destruct (p x) eqn:E.
  - change (mem i (x :: filter p r) v) with (rel i x v || mem i (filter p r) v). rewrite IH.
    destruct (rel i x v) eqn:F; [|reflexivity]. rewrite <- (Hp x v F), E. reflexivity.
  - rewrite IH. destruct (rel i x v) eqn:F; [|reflexivity]. rewrite <- (Hp x v F), E.
    rewrite !andb_false_r. reflexivity.
Qed.

Lemma filter_distinct {O : objects} i (p : V O -> bool) (l : list (V O)) : distinct i l -> distinct i (filter p l).
Proof.
  induction l as [|x r IH]; [auto|]. intros (H1 & H2). cbn [filter]. destruct (p x); [|auto].
  split; [|auto]. apply mem_not. intros k Hk. apply filter_In in Hk. destruct Hk as (Hk & _).
  apply (proj1 (mem_not i r x) H1 k Hk).
Qed.

Lemma rem_mem {O : objects} i (l : list (V O)) v w : mem i (rem i l v) w = mem i l w && negb (rel i v w).
Proof.
  unfold rem. rewrite filter_mem; [rewrite rel_sym; reflexivity|].
  intros a b H. f_equal. apply rel_left. exact H.
Qed.

Lemma rem_all_mem {O : objects} i vs : forall (l : list (V O)) w,
  mem i (fold_left (rem i) vs l) w = mem i l w && negb (mem i vs w).
Proof.
  induction vs as [|v r IH]; intros l w; cbn [fold_left].
  - cbn. rewrite andb_true_r. reflexivity.
  - rewrite IH, rem_mem. cbn. rewrite negb_orb, andb_assoc. reflexivity.
Qed.

Lemma rem_all_distinct {O : objects} i vs : forall (l : list (V O)), distinct i l -> distinct i (fold_left (rem i) vs l).
Proof.
  induction vs as [|v r IH]; intros l H; cbn [fold_left]; [exact H|]. apply IH. apply filter_distinct. exact H.
Qed.

Lemma distinct_in {O : objects} i (l : list (V O)) a b :
  distinct i l -> In a l -> In b l -> rel i a b = true -> a = b.
Proof.
  induction l as [|x r IH]; [intros _ []|]. intros (H1 & H2) [<-|Ha] [<-|Hb] R; auto.
  - rewrite rel_sym in R. rewrite (proj1 (mem_not i r x) H1 b Hb) in R. discriminate R.
  - rewrite (proj1 (mem_not i r x) H1 a Ha) in R. discriminate R.
Qed.

(** An element that is equal to nothing else by eql? is so by identity. *)
Lemma distinct_ident {O : objects} i (l : list (V O)) : distinct i l -> distinct true l.
Proof.
  induction l as [|x r IH]; [auto|]. intros (H1 & H2). split; [|auto].
  apply mem_not. intros k Hk. destruct (rel true k x) eqn:E; [|reflexivity].
  apply (rel_same_eql i) in E. rewrite (proj1 (mem_not i r x) H1 k Hk) in E. discriminate E.
Qed.

(* ------------------------------------------------------------------ *)
(** ** Building sets *)

Lemma add_ok {O} (s : set O) v : wf s ->
  wf (add s v) /\ forall w, has (add s v) w = has s w || rel (ident s) v w.
Proof. intros H. split; [apply ins_distinct; exact H|]. intros w. apply ins_mem. Qed.

Lemma delete_ok {O} (s : set O) v : wf s ->
  wf (delete s v) /\ forall w, has (delete s v) w = has s w && negb (rel (ident s) v w).
Proof. intros H. split; [apply filter_distinct; exact H|]. intros w. apply rem_mem. Qed.

(** add? and delete? do the same and say whether there was something to do. *)
Lemma add_q_ok {O} (s : set O) v : add_q s v = (add s v, negb (has s v)).
Proof.
  unfold add_q, add, has, ins. destruct (mem (ident s) (els s) v); [|reflexivity].
  destruct s; reflexivity.
Qed.

Lemma delete_q_ok {O} (s : set O) v : delete_q s v = (delete s v, has s v).
Proof.
  unfold delete_q. destruct (has s v) eqn:E; [reflexivity|]. unfold delete, rem. f_equal.
  unfold has in E. rewrite mem_not in E.
  destruct s as [c i l]. cbn [cls ident els] in *. f_equal. symmetry. clear -E.
  induction l as [|x r IH]; [reflexivity|]. cbn. rewrite (E x (or_introl eq_refl)). cbn. f_equal.
  apply IH. intros k Hk. apply E. right. exact Hk.
Qed.

(** Set.new and Set.[]: the elements, each once. *)
Lemma new_ok {O} c (vs : list (V O)) :
  wf (set_new c vs) /\ cls (set_new c vs) = c /\ forall w, has (set_new c vs) w = mem false vs w.
Proof.
  split; [apply ins_all_distinct; exact I|]. split; [reflexivity|]. intros w. apply (ins_all_mem false vs [] w).
Qed.

Lemma index_ok {O} (vs : list (V O)) : set_index 0 vs = set_new 0 vs.
Proof. reflexivity. Qed.

Lemma by_identity_ok {O} (s : set O) : wf s -> wf (by_identity s) /\ els (by_identity s) = els s.
Proof.
  intros H. apply distinct_ident in H. split.
  - apply ins_all_distinct. exact I.
  - apply (ins_all_fresh true (els s) []). exact H.
Qed.

(* ------------------------------------------------------------------ *)
(** ** The operations *)

Lemma with_elems_ok {O} {A} (a : arg O) (f : list (V O) -> A) l : elems a = Val l -> with_elems a f = Val (f l).
Proof. intros H. unfold with_elems. rewrite H. reflexivity. Qed.

Lemma merge_ok {O} (s : set O) a l : wf s -> elems a = Val l ->
  exists r, merge s a = Val r /\ wf r /\ forall w, has r w = has s w || mem (ident s) l w.
Proof.
  intros H E. exists (add_all s l). split; [apply with_elems_ok; exact E|].
  split; [apply ins_all_distinct; exact H|]. intros w. apply ins_all_mem.
Qed.

Lemma subtract_ok {O} (s : set O) a l : wf s -> elems a = Val l ->
  exists r, subtract s a = Val r /\ wf r /\ forall w, has r w = has s w && negb (mem (ident s) l w).
Proof.
  intros H E. eexists. split; [apply with_elems_ok; exact E|].
  split; [apply rem_all_distinct; exact H|]. intros w. apply rem_all_mem.
Qed.

(** replace by a set makes the receiver the same as it. *)
Lemma replace_ok {O} (s t : set O) : wf t -> replace s (ASet t) = Val (mkS (cls s) (ident t) (els t)).
Proof.
  intros H. unfold replace, with_elems, add_all. cbn. f_equal. f_equal.
  apply (ins_all_fresh (ident t) (els t) []). exact H.
Qed.

Lemma replace_enum {O} (s : set O) l :
  exists r, replace s (AEnum l) = Val r /\ wf r /\ ident r = ident s /\ forall w, has r w = mem (ident s) l w.
Proof.
  eexists. split; [reflexivity|]. split; [apply ins_all_distinct; exact I|]. split; [reflexivity|].
  intros w. apply (ins_all_mem (ident s) l [] w).
Qed.

Lemma union_ok {O} (s : set O) a l : wf s -> elems a = Val l ->
  exists r, union s a = Val r /\ wf r /\ ident r = ident s /\ forall w, has r w = has s w || mem (ident s) l w.
Proof.
  intros H E. eexists. split; [apply with_elems_ok; exact E|].
  split; [apply ins_all_distinct, ins_all_distinct; exact I|]. split; [reflexivity|].
  intros w. unfold has, add_all, new_like. cbn [els ident cls]. rewrite !ins_all_mem. reflexivity.
Qed.

(** The elements of the receiver come first and in order. *)
Lemma union_order {O} (s : set O) a l : wf s -> elems a = Val l ->
  exists r, union s a = Val r /\ exists more, els r = els s ++ more.
Proof.
  intros H E. eexists. split; [apply with_elems_ok; exact E|].
  unfold add_all, new_like. cbn [els ident cls].
  rewrite (ins_all_fresh (ident s) (els s) []) by exact H. cbn [app].
  generalize (els s). clear. intros l0. revert l0. unfold ins_all.
  induction l as [|v r IH]; intros l0; cbn [fold_left].
  - exists []. rewrite app_nil_r. reflexivity.
  - destruct (IH (ins (ident s) l0 v)) as (m & Em). rewrite Em. unfold ins.
    destruct (mem (ident s) l0 v); [exists m; reflexivity|]. exists (v :: m). rewrite <- app_assoc. reflexivity.
Qed.

Lemma has_add_all {O} (s : set O) l w : has (add_all s l) w = has s w || mem (ident s) l w.
Proof. apply (ins_all_mem (ident s) l (els s) w). Qed.

Lemma ident_add_all {O} (s : set O) l : ident (add_all s l) = ident s.
Proof. reflexivity. Qed.

Lemma ident_like {O} (s : set O) : ident (new_like s) = ident s.
Proof. reflexivity. Qed.

Lemma has_like {O} (s : set O) w : has (new_like s) w = false.
Proof. reflexivity. Qed.

Lemma has_new {O} w : has (@new_empty O) w = false.
Proof. reflexivity. Qed.

Lemma other_has {O} (s : set O) l w : has (add_all (new_like s) l) w = mem (ident s) l w.
Proof. rewrite has_add_all. reflexivity. Qed.

Lemma mem_respects {O} (s : set O) l a b : rel (ident s) a b = true ->
  has (add_all (new_like s) l) a = has (add_all (new_like s) l) b.
Proof. intros H. rewrite !other_has. apply mem_rel. exact H. Qed.

Lemma difference_ok {O} (s : set O) a l : wf s -> elems a = Val l ->
  exists r, difference s a = Val r /\ wf r /\ ident r = ident s /\
    forall w, has r w = has s w && negb (mem (ident s) l w).
Proof.
  intros H E. eexists. split; [apply with_elems_ok; exact E|].
  split; [apply ins_all_distinct; exact I|]. split; [reflexivity|].
  intros w. rewrite has_add_all, has_like, ident_like. cbn [orb].
  rewrite filter_mem by (intros x y R; f_equal; apply mem_respects; exact R).
  rewrite other_has. reflexivity.
Qed.

Lemma intersection_ok {O} (s : set O) a l : wf s -> ident s = false -> elems a = Val l ->
  exists r, intersection s a = Val r /\ wf r /\ ident r = false /\
    forall w, has r w = has s w && mem false l w.
Proof.
  intros H Hi E. eexists. split; [apply with_elems_ok; exact E|].
  split; [apply ins_all_distinct; exact I|]. split; [reflexivity|].
  intros w. rewrite has_add_all, has_new. cbn [orb]. change (ident (@new_empty O)) with false.
  rewrite filter_mem.
  - rewrite other_has. unfold has. rewrite Hi. reflexivity.
  - intros x y R. apply mem_respects. rewrite Hi. exact R.
Qed.

(** By identity, the elements that are in both are found by identity, and the
    result compares with eql?. *)
Lemma intersection_ident {O} (s : set O) a l : wf s -> ident s = true -> elems a = Val l ->
  exists r, intersection s a = Val r /\ wf r /\ ident r = false /\
    forall w, has r w = true <-> exists k, In k (els s) /\ In k l /\ eql k w = true.
Proof.
  intros H Hi E. eexists. split; [apply with_elems_ok; exact E|].
  split; [apply ins_all_distinct; exact I|]. split; [reflexivity|].
  intros w. rewrite has_add_all, has_new. cbn [orb]. change (ident (@new_empty O)) with false.
  rewrite mem_iff. split.
  - intros (k & Hk & R). apply filter_In in Hk. destruct Hk as (Hk & G). rewrite other_has, Hi in G.
    apply mem_iff in G. destruct G as (k' & Hk' & G). apply same_eq in G. subst k'. exists k. auto.
  - intros (k & Hk & Hl & R). exists k. split; [|exact R]. apply filter_In. split; [exact Hk|].
    rewrite other_has. apply mem_in. exact Hl.
Qed.

Lemma symmetric_ok {O} (s : set O) a l : wf s -> elems a = Val l ->
  exists r, symmetric s a = Val r /\ wf r /\ ident r = ident s /\
    forall w, has r w = xorb (has s w) (mem (ident s) l w).
Proof.
  intros H E. eexists. split; [apply with_elems_ok; exact E|].
  split; [apply ins_all_distinct, ins_all_distinct; exact I|]. split; [reflexivity|].
  intros w. rewrite has_add_all, ident_add_all, ident_like, has_add_all, ident_like, has_like. cbn [orb].
  rewrite !filter_mem.
  - rewrite other_has. change (mem (ident s) (els (add_all (new_like s) l)) w) with (has (add_all (new_like s) l) w).
    rewrite other_has. destruct (has s w) eqn:Hs; unfold has in Hs; rewrite Hs; destruct (mem (ident s) l w); reflexivity.
  - intros x y R. f_equal. apply mem_rel. exact R.
  - intros x y R. f_equal. apply mem_respects. exact R.
Qed.

(* ------------------------------------------------------------------ *)
(** ** Changes in place *)

Lemma drop_filter {O : objects} i vs : forall (l : list (V O)),
  fold_left (rem i) vs l = filter (fun k => negb (mem i vs k)) l.
Proof.
  induction vs as [|v r IH]; intros l; cbn [fold_left].
  - cbn. induction l as [|x t IHl]; [reflexivity|]. cbn. rewrite <- IHl. reflexivity.
  - rewrite IH. unfold rem. clear IH. induction l as [|x t IHl]; [reflexivity|]. cbn [filter].
    change (mem i (v :: r) x) with (rel i v x || mem i r x). rewrite (rel_sym i v x).
    destruct (rel i x v) eqn:E; cbn [negb orb].
    + exact IHl.
    + cbn [filter]. destruct (mem i r x); cbn [negb]; [exact IHl|]. f_equal. exact IHl.
Qed.

Lemma drop_ok {O : objects} i (p : V O -> bool) (l : list (V O)) : distinct i l ->
  fold_left (rem i) (filter p l) l = filter (fun k => negb (p k)) l.
Proof.
  intros H. rewrite drop_filter. apply filter_ext_in. intros k Hk. f_equal.
  destruct (p k) eqn:E.
  - apply mem_in. apply filter_In. auto.
  - apply mem_not. intros d Hd. apply filter_In in Hd. destruct Hd as (Hd & Ed).
    destruct (rel i d k) eqn:R; [|reflexivity].
    assert (G : d = k) by (apply (distinct_in i l); assumption). congruence.
Qed.

Lemma delete_if_ok {O} (p : V O -> bool) (s : set O) : wf s ->
  wf (delete_if p s) /\ els (delete_if p s) = filter (fun k => negb (p k)) (els s).
Proof.
  intros H. split; [apply rem_all_distinct; exact H|]. apply drop_ok. exact H.
Qed.

Lemma keep_if_ok {O} (p : V O -> bool) (s : set O) : wf s ->
  wf (keep_if p s) /\ els (keep_if p s) = filter p (els s).
Proof.
  intros H. split; [apply rem_all_distinct; exact H|]. unfold keep_if, drop_all. cbn [els].
  rewrite drop_ok by exact H. apply filter_ext. intros k. apply negb_involutive.
Qed.

Lemma filter_nil {A} (p : A -> bool) l : filter p l = [] -> forallb (fun k => negb (p k)) l = true /\ filter (fun k => negb (p k)) l = l.
Proof.
  induction l as [|x r IH]; cbn; [auto|]. destruct (p x); [discriminate|]. intros H.
  destruct (IH H) as (-> & ->). auto.
Qed.

Lemma filter_some {A} (p : A -> bool) l x d : filter p l = x :: d -> forallb (fun k => negb (p k)) l = false.
Proof.
  intros H. assert (G : In x l /\ p x = true) by (apply filter_In; rewrite H; left; reflexivity).
  destruct (forallb _ l) eqn:E; [|reflexivity]. rewrite forallb_forall in E.
  specialize (E x (proj1 G)). rewrite (proj2 G) in E. discriminate E.
Qed.

(** reject! and select! do the same and say whether an element was dropped. *)
Lemma reject_bang_ok {O} (p : V O -> bool) (s : set O) : wf s ->
  reject_bang p s = (delete_if p s, existsb p (els s)).
Proof.
  intros H. unfold reject_bang, delete_if. destruct (filter p (els s)) as [|x d] eqn:E.
  - f_equal; [destruct s; reflexivity|]. destruct (existsb p (els s)) eqn:F; [|reflexivity].
    apply existsb_exists in F. destruct F as (k & Hk & F).
    assert (G : In k (filter p (els s))) by (apply filter_In; auto). rewrite E in G. destruct G.
  - f_equal. symmetry. apply existsb_exists. exists x. apply filter_In. rewrite E. left. reflexivity.
Qed.

Lemma select_bang_ok {O} (p : V O -> bool) (s : set O) : wf s ->
  select_bang p s = (keep_if p s, existsb (fun k => negb (p k)) (els s)).
Proof. intros H. apply (reject_bang_ok (fun k => negb (p k)) s H). Qed.

Lemma collect_bang_ok {O} (f : V O -> V O) (s : set O) :
  wf (collect_bang f s) /\ cls (collect_bang f s) = cls s /\
  forall w, has (collect_bang f s) w = existsb (fun k => eql (f k) w) (els s).
Proof.
  split; [apply ins_all_distinct; exact I|]. split; [reflexivity|]. intros w.
  unfold collect_bang. rewrite has_add_all. cbn [ident]. change (has (mkS (cls s) false []) w) with false. cbn [orb].
  induction (els s) as [|x r IH]; [reflexivity|]. cbn [map existsb].
  change (mem false (f x :: map f r) w) with (eql (f x) w || mem false (map f r) w). rewrite IH. reflexivity.
Qed.

(** dup of a set that compares with eql?. *)
Lemma dup_ok {O} (s : set O) : wf s -> ident s = false -> cls s = 0 -> dup s = s.
Proof.
  intros H Hi Hc. unfold dup, from_iter, add_all. rewrite Hi. cbn [cls ident els new_empty].
  unfold wf in H. rewrite Hi in H.
  change (ident new_empty) with false. change (cls new_empty) with 0. change (els new_empty) with (@nil (V O)).
  rewrite (ins_all_fresh false (els s) [] H). destruct s; cbn in *; congruence.
Qed.

(** divide gives the groups of equal answers if equal answers are identical. *)
Lemma group_ext {A K} (k1 k2 : K -> K -> bool) (f : A -> K) : forall l h,
  (forall a b, In a (map fst h ++ map f l) -> In b (map fst h ++ map f l) -> k1 a b = k2 a b) ->
  fold_left (fun h x => upsert k1 (f x) [x] (fun v => v ++ [x]) h) l h =
  fold_left (fun h x => upsert k2 (f x) [x] (fun v => v ++ [x]) h) l h.
Proof.
  induction l as [|x r IH]; intros h H; cbn [fold_left]; [reflexivity|].
  assert (G : forall h0, (forall a, In a (map fst h0) -> k1 a (f x) = k2 a (f x)) ->
    upsert k1 (f x) [x] (fun v => v ++ [x]) h0 = upsert k2 (f x) [x] (fun v => v ++ [x]) h0).
  { clear. induction h0 as [|[k v] t IHh]; intros H; [reflexivity|]. cbn.
    rewrite (H k (or_introl eq_refl)). destruct (k2 k (f x)); [reflexivity|]. f_equal. apply IHh.
    intros a Ha. apply H. right. exact Ha. }
  rewrite G.
  - apply IH. intros a b Ha Hb. apply H.
    + clear -Ha. apply in_app_or in Ha. apply in_or_app. destruct Ha as [Ha|Ha]; [|right; right; exact Ha].
      induction h as [|[k v] t IHh]; cbn in *.
      * destruct Ha as [<-|[]]. right. left. reflexivity.
      * destruct (k2 k (f x)); cbn in Ha.
        -- left. exact Ha.
        -- destruct Ha as [<-|Ha]; [left; left; reflexivity|]. destruct (IHh Ha) as [G|G]; [left; right; exact G|right; exact G].
    + clear -Hb. rename Hb into Ha, b into a0. apply in_app_or in Ha. apply in_or_app. destruct Ha as [Ha|Ha]; [|right; right; exact Ha].
      induction h as [|[k v] t IHh]; cbn in *.
      * destruct Ha as [<-|[]]. right. left. reflexivity.
      * destruct (k2 k (f x)); cbn in Ha.
        -- left. exact Ha.
        -- destruct Ha as [<-|Ha]; [left; left; reflexivity|]. destruct (IHh Ha) as [G|G]; [left; right; exact G|right; exact G].
  - intros a Ha. apply H; apply in_or_app; [left; exact Ha|right; left; reflexivity].
Qed.

Lemma divide_ok {O} (f : V O -> V O) (s : set O) :
  (forall a b, In a (els s) -> In b (els s) -> eql (f a) (f b) = true -> f a = f b) ->
  divide f s = map snd (group_by eql f (els s)).
Proof.
  intros H. unfold divide, group_by. f_equal. apply group_ext. cbn [map app]. intros a b Ha Hb.
  apply in_map_iff in Ha, Hb. destruct Ha as (x & <- & Hx), Hb as (y & <- & Hy).
  destruct (eql (f x) (f y)) eqn:E.
  - apply same_eq. apply H; assumption.
  - destruct (same (f x) (f y)) eqn:F; [|reflexivity]. apply same_eq in F. rewrite F, eql_refl in E. discriminate E.
Qed.
