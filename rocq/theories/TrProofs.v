From Coq Require Import List Bool ZArith Lia.
From Verif Require Import TrModel TrSpec.
Import ListNotations.
Open Scope Z_scope.

Lemma expand_items n : forall m l, (length l < n)%nat -> (length l <= m)%nat ->
  forallb (fun i => match i with Span _ b => negb (b =? 92) | One _ => true end) (items m l) = true ->
  expand n l = if forallb fine (items m l) then Some (concat (map members (items m l))) else None.
Proof.
  induction n as [|n IH]; intros m l hn hm hp; [lia|].
  destruct l as [|c r]; [destruct m; reflexivity|].
  destruct m as [|m]; [simpl in hm; lia|]. simpl in hn, hm.
  assert (D : forall x q, (length q < n)%nat -> (length q <= m)%nat ->
     forallb (fun i => match i with Span _ b => negb (b =? 92) | One _ => true end)
        (match q with d :: e :: q' => if d =? 45 then Span x e :: items m q' else One x :: items m q | _ => One x :: items m q end) = true ->
     match q with
          | d :: e :: r' =>
              if d =? 45
              then let '(en, r) := escaped e r' in
                   if en <? x then None else match expand n r with Some t => Some (between x en ++ t) | None => None end
              else match expand n q with Some t => Some (x :: t) | None => None end
          | _ => match expand n q with Some t => Some (x :: t) | None => None end
          end =
     let its := match q with d :: e :: q' => if d =? 45 then Span x e :: items m q' else One x :: items m q | _ => One x :: items m q end in
     if forallb fine its then Some (concat (map members its)) else None).
  { intros x q h1 h2 hq.
    assert (O1 : forallb (fun i => match i with Span _ b => negb (b =? 92) | One _ => true end) (items m q) = true ->
       match expand n q with Some t => Some (x :: t) | None => None end
       = if forallb fine (One x :: items m q) then Some (concat (map members (One x :: items m q))) else None).
    { intros hi. rewrite (IH m q h1 h2 hi). cbn [forallb fine andb map members concat app]. destruct (forallb fine (items m q)); reflexivity. }
    destruct q as [|d q]; [exact (O1 hq)|]. destruct q as [|e q]; [exact (O1 hq)|].
    destruct (d =? 45); [|exact (O1 hq)].
    cbn [forallb] in hq. apply andb_true_iff in hq. destruct hq as [he hq]. apply negb_true_iff in he.
    unfold escaped. rewrite he. simpl in h1, h2.
    rewrite (IH m q ltac:(lia) ltac:(lia) hq). cbn [forallb fine map members concat].
    destruct (Z.ltb_spec e x); destruct (Z.leb_spec x e); try lia; [reflexivity|].
    cbn [andb]. destruct (forallb fine (items m q)); reflexivity. }
  cbn [expand items]. cbn [items] in hp. unfold escaped at 1.
  destruct r as [|x q].
  - destruct (Z.eqb_spec c 92) as [->|]; apply (D _ []); cbn; try lia; exact hp.
  - destruct (c =? 92).
    + apply (D x q); [simpl in *; lia|simpl in *; lia|exact hp].
    + apply (D c (x :: q)); [simpl in *; lia|simpl in *; lia|exact hp].
Qed.

Lemma caret_eq l : caret l = (turned l, inside l).
Proof. unfold caret, inside, turned. destruct l as [|c [|x r]]; [reflexivity|reflexivity|]. destruct (c =? 94); reflexivity. Qed.

Lemma expand_spec_eq l : plain_set l = true -> expand_spec l = if good_set l then Some (listed (inside l), turned l) else None.
Proof.
  intros h. unfold expand_spec. rewrite caret_eq. unfold good_set, valid, listed, items_of.
  rewrite (expand_items _ (length (inside l)) (inside l)); [|lia|lia|exact h].
  destruct (forallb fine (items (length (inside l)) (inside l))); reflexivity.
Qed.

(** Bitmaps *)
Lemma land_bit a k : 0 <= k -> negb (Z.land a (2 ^ k) =? 0) = Z.testbit a k.
Proof.
  intros hk. destruct (Z.testbit a k) eqn:e.
  - apply negb_true_iff, Z.eqb_neq. intros h.
    assert (H := f_equal (fun z => Z.testbit z k) h). cbn beta in H.
    rewrite Z.land_spec, e, Z.pow2_bits_true, Z.bits_0 in H by exact hk. discriminate.
  - apply negb_false_iff, Z.eqb_eq. apply Z.bits_inj'. intros n hn. rewrite Z.land_spec, Z.bits_0, Z.pow2_bits_eqb by exact hk.
    destruct (Z.eqb_spec k n) as [<-|]; [rewrite e; reflexivity|apply andb_false_r].
Qed.

Lemma get_set m b c : 0 <= b < 128 -> 0 <= c < 128 -> get_bit (set_bit m b) c = (c =? b) || get_bit m c.
Proof.
  intros hb hc. unfold get_bit, set_bit.
  assert (kb := Z.mod_pos_bound b 64 ltac:(lia)). assert (kc := Z.mod_pos_bound c 64 ltac:(lia)).
  rewrite !land_bit by lia.
  assert (db := Z.div_mod b 64 ltac:(lia)). assert (dc := Z.div_mod c 64 ltac:(lia)).
  assert (L : forall a, Z.testbit (Z.lor a (2 ^ (b mod 64))) (c mod 64) = (c mod 64 =? b mod 64) || Z.testbit a (c mod 64)).
  { intros a. rewrite Z.lor_spec, Z.pow2_bits_eqb by lia. rewrite (Z.eqb_sym (b mod 64)). apply orb_comm. }
  destruct (Z.eqb_spec (b / 64) 0); destruct (Z.eqb_spec (c / 64) 0); cbn [fst snd]; rewrite ?L;
    destruct (Z.eqb_spec c b); try (destruct (Z.eqb_spec (c mod 64) (b mod 64))); try lia; try reflexivity.
  all: assert (b / 64 < 2) by (apply Z.div_lt_upper_bound; lia); assert (c / 64 < 2) by (apply Z.div_lt_upper_bound; lia);
       assert (0 <= b / 64) by (apply Z.div_pos; lia); assert (0 <= c / 64) by (apply Z.div_pos; lia); lia.
Qed.

Lemma get_bitmap l c : 0 <= c < 128 -> forallb (fun b => (0 <=? b) && (b <? 128)) l = true -> get_bit (bitmap l) c = in_list c l.
Proof.
  intros hc. unfold bitmap.
  assert (G : forall m, forallb (fun b => (0 <=? b) && (b <? 128)) l = true -> get_bit (fold_left set_bit l m) c = in_list c l || get_bit m c).
  { induction l as [|b l IH]; intros m h; [reflexivity|]. cbn [forallb] in h. apply andb_true_iff in h. destruct h as [hb h].
    apply andb_true_iff in hb. destruct hb as [h1 h2]. apply Z.leb_le in h1. apply Z.ltb_lt in h2.
    cbn [fold_left in_list existsb]. rewrite (IH _ h), get_set by lia. unfold in_list. destruct (existsb (Z.eqb c) l), (c =? b); reflexivity. }
  intros h. rewrite (G (0, 0) h). unfold get_bit. cbn [fst snd]. destruct (c / 64 =? 0); rewrite Z.land_0_l; apply orb_false_r.
Qed.

(** The replacement *)
Lemma find_put m k v c : find_in (put m k v) c = if k =? c then Some v else find_in m c.
Proof.
  induction m as [|[a b] m IH]; cbn [put find_in]; [reflexivity|].
  destruct (Z.eqb_spec a k) as [->|]; cbn [find_in].
  - destruct (k =? c); reflexivity.
  - destruct (Z.eqb_spec a c) as [->|]; [|exact IH]. destruct (Z.eqb_spec k c) as [->|]; [congruence|reflexivity].
Qed.
Lemma find_fold ps : forall m c, find_in (fold_left (fun m p => put m (fst p) (snd p)) ps m) c
  = fold_left (fun t p => if fst p =? c then Some (snd p) else t) ps (find_in m c).
Proof. induction ps as [|p ps IH]; intros m c; [reflexivity|]. cbn [fold_left]. rewrite IH, find_put. reflexivity. Qed.
Lemma table_find ps c : table ps c = match find (fun p => fst p =? c) (rev ps) with Some p => Some (snd p) | None => None end.
Proof.
  unfold table. induction ps as [|p ps IH] using rev_ind; [reflexivity|].
  rewrite fold_left_app, rev_app_distr. cbn [fold_left rev app find]. destruct (fst p =? c); [reflexivity|exact IH].
Qed.
Lemma pairs_eq fs : forall i ts l k, (length fs <= k)%nat -> pairs i fs ts l = combine fs (skipn i ts ++ repeat l k).
Proof.
  induction fs as [|c fs IH]; intros i ts l k hk; [reflexivity|]. cbn [length] in hk.
  cbn [pairs]. destruct (nth_error ts i) as [r|] eqn:e.
  - assert (hs : skipn i ts = r :: skipn (S i) ts).
    { clear -e. revert i e. induction ts as [|x ts IH]; intros [|i] e; try discriminate; cbn in *; [injection e as ->; reflexivity|apply (IH i e)]. }
    rewrite hs. cbn [app combine]. rewrite <- (IH (S i) ts l k) by lia. reflexivity.
  - apply nth_error_None in e. rewrite skipn_all2 by exact e. destruct k as [|k]; [lia|]. cbn [app repeat combine].
    rewrite (IH (S i) ts l k) by lia. rewrite skipn_all2 by lia. reflexivity.
Qed.

(** The loops *)
Definition putf (g : Z -> option Z) (c : Z) : act := match g c with Some r => Put r | None => Keep end.
Lemma walk_put sq f g s : (forall c, In c s -> f c = putf g c) -> forall last, walk sq f last s =
  (map (fun p => match snd (fst p) with Some r => r | None => snd p end)
     (filter (fun p => kept sq (fst (fst p)) (snd (fst p))) (combine (combine (last :: map g s) (map g s)) s)),
   existsb (fun m : option Z => match m with Some _ => true | None => false end) (map g s)).
Proof.
  induction s as [|c s IH]; intros hf last; [reflexivity|].
  specialize (IH (fun x hx => hf x (or_intror hx))).
  cbn [walk]. rewrite (hf c (or_introl eq_refl)). unfold putf. cbn [map existsb].
  change (combine (combine (last :: g c :: map g s) (g c :: map g s)) (c :: s))
    with (((last, g c), c) :: combine (combine (g c :: map g s) (map g s)) s).
  destruct (g c) as [r|] eqn:e.
  - rewrite (IH (Some r)). destruct last as [q|]; cbn [filter kept fst snd]; [|rewrite andb_false_r; reflexivity].
    rewrite (Z.eqb_sym q r). destruct (sq && (r =? q)); reflexivity.
  - rewrite (IH None). destruct last; reflexivity.
Qed.
Lemma walk_drop sq f (h : Z -> bool) s : (forall c, In c s -> f c = if h c then Drop else Keep) -> forall last,
  walk sq f last s = (filter (fun c => negb (h c)) s, existsb h s).
Proof.
  induction s as [|c s IH]; intros hf last; [reflexivity|].
  specialize (IH (fun x hx => hf x (or_intror hx))).
  cbn [walk filter existsb]. rewrite (hf c (or_introl eq_refl)). destruct (h c); rewrite (IH None); reflexivity.
Qed.

Lemma forallb_in {A} (f : A -> bool) l x : forallb f l = true -> In x l -> f x = true.
Proof. intros h. exact (proj1 (forallb_forall f l) h x). Qed.

Lemma in_list_In c l : in_list c l = true <-> In c l.
Proof. unfold in_list. rewrite existsb_exists. split; [intros [x [h e]]; apply Z.eqb_eq in e; subst; exact h|intros h; exists c; split; [exact h|apply Z.eqb_refl]]. Qed.

(** Members of a set of given characters lie in the same bounds. *)
Lemma between_in a b x : In x (between a b) -> a <= x <= b.
Proof.
  unfold between. rewrite filter_In, in_map_iff. intros [[k [<- hk]] _]. apply in_seq in hk. lia.
Qed.
Lemma items_bound (P : Z -> Prop) m : forall l, (forall x, In x l -> P x) -> forall i, In i (items m l) -> match i with One c => P c | Span a b => P a /\ P b end.
Proof.
  induction m as [|m IH]; intros l hl i hi; [destruct l; contradiction|].
  destruct l as [|c r]; [contradiction|]. cbn [items] in hi.
  assert (D : forall x q, P x -> (forall y, In y q -> P y) ->
    In i (match q with d :: e :: q' => if d =? 45 then Span x e :: items m q' else One x :: items m q | _ => One x :: items m q end) ->
    match i with One c => P c | Span a b => P a /\ P b end).
  { intros x q px pq h.
    assert (O1 : In i (One x :: items m q) -> match i with One c => P c | Span a b => P a /\ P b end).
    { intros [<-|h']; [exact px|exact (IH q pq i h')]. }
    destruct q as [|d [|e q]]; [exact (O1 h)|exact (O1 h)|]. destruct (d =? 45); [|exact (O1 h)].
    destruct h as [<-|h]; [split; [exact px|apply pq; right; left; reflexivity]|].
    apply (IH q); [intros y hy; apply pq; right; right; exact hy|exact h]. }
  destruct r as [|x q]; [apply (D c []); [apply hl; left; reflexivity|intros y []|exact hi]|].
  destruct (c =? 92).
  - apply (D x q); [apply hl; right; left; reflexivity|intros y hy; apply hl; right; right; exact hy|exact hi].
  - apply (D c (x :: q)); [apply hl; left; reflexivity|intros y hy; apply hl; right; exact hy|exact hi].
Qed.
Lemma inside_in l x : In x (inside l) -> In x l.
Proof. unfold inside. destruct (turned l); [|exact (fun h => h)]. destruct l; [contradiction|intros h; right; exact h]. Qed.
Lemma listed_bound l x : In x (listed l) -> exists a b, In a l /\ In b l /\ a <= x <= b.
Proof.
  unfold listed. rewrite in_concat. intros [y [hy hx]]. rewrite in_map_iff in hy. destruct hy as [i [<- hi]].
  assert (B := items_bound (fun z => In z l) _ l (fun z hz => hz) i hi).
  destruct i as [c|a b]; cbn [members] in hx.
  - destruct hx as [<-|[]]. exists c, c. split; [exact B|]. split; [exact B|lia].
  - destruct B as [ha hb]. exists a, b. split; [exact ha|]. split; [exact hb|exact (between_in _ _ _ hx)].
Qed.
Lemma listed_ok l : chars_ok l = true -> chars_ok (listed (inside l)) = true.
Proof.
  unfold chars_ok. intros h. apply forallb_forall. intros x hx. apply listed_bound in hx. destruct hx as [a [b [ha [_ hab]]]].
  apply inside_in in ha. assert (A := forallb_in _ _ _ h ha). cbn beta in A. apply Z.leb_le in A. apply Z.leb_le. lia.
Qed.
Lemma listed_ascii l : ascii l = true -> ascii (listed (inside l)) = true.
Proof.
  unfold ascii. intros h. apply forallb_forall. intros x hx. apply listed_bound in hx. destruct hx as [a [b [_ [hb hab]]]].
  apply inside_in in hb. assert (B := forallb_in _ _ _ h hb). cbn beta in B. apply Z.ltb_lt in B. apply Z.ltb_lt. lia.
Qed.
Lemma ascii_not_in l c : ascii l = true -> 128 <= c -> in_list c l = false.
Proof.
  intros h hc. destruct (in_list c l) eqn:e; [|reflexivity]. apply in_list_In in e. assert (B := forallb_in _ _ _ h e). cbn beta in B.
  apply Z.ltb_lt in B. lia.
Qed.

(** The sets of count, delete and squeeze *)
Lemma in_filter c l (f : Z -> bool) : in_list c (filter f l) = f c && in_list c l.
Proof.
  induction l as [|x l IH]; [cbn; rewrite andb_false_r; reflexivity|]. cbn [filter]. destruct (f x) eqn:e; unfold in_list in *; cbn [existsb]; rewrite IH.
  - destruct (Z.eqb_spec c x) as [->|]; [rewrite e; reflexivity|reflexivity].
  - destruct (Z.eqb_spec c x) as [->|]; [rewrite e; reflexivity|reflexivity].
Qed.
Lemma parse_ok l : plain_set l = true -> chars_ok l = true ->
  match parse l with
  | Some t => good_set l = true /\ (forall c, 0 <= c -> has_char t c = in_set l c) /\ (forall c, 0 <= c < 128 -> has_byte t c = in_set l c)
  | None => good_set l = false
  end.
Proof.
  intros hp hc. unfold parse. destruct l as [|a r]; [split; [reflexivity|split; reflexivity]|].
  set (l := a :: r) in *. rewrite (expand_spec_eq l hp). destruct (good_set l); [|reflexivity].
  set (t := listed (inside l)). set (n := turned l).
  assert (hb : forall c, 0 <= c < 128 -> get_bit (bitmap (filter (fun c => c <? 128) t)) c = in_list c t).
  { intros c h. rewrite get_bitmap; [|exact h|].
    - rewrite in_filter. destruct (Z.ltb_spec c 128); [reflexivity|lia].
    - apply forallb_forall. intros x hx. apply filter_In in hx. destruct hx as [hx h1].
      assert (A := forallb_in _ _ _ (listed_ok l hc) hx). cbn beta in A. rewrite A, h1. reflexivity. }
  split; [reflexivity|]. unfold has_char, has_byte, in_set. subst l. cbn [low high neg_of empty]. fold t n.
  split; intros c h.
  - destruct (Z.ltb_spec c 128); [rewrite hb by lia; reflexivity|]. rewrite in_filter.
    destruct (Z.ltb_spec c 128); [lia|reflexivity].
  - rewrite hb by lia. reflexivity.
Qed.

Definition args_ok (utf8 : bool) (args : list chars) : bool := forallb (fun a => plain_set a && chars_ok a && (utf8 || ascii a)) args.
Lemma parse_all_ok utf8 args s : args_ok utf8 args = true -> chars_ok s = true ->
  match parse_all args with
  | Some sets => forallb good_set args = true /\ forall c, In c s -> test utf8 s sets c = forallb (fun a => in_set a c) args
  | None => forallb good_set args = false
  end.
Proof.
  intros ha hs. induction args as [|a r IH].
  - cbn [parse_all]. split; [reflexivity|]. intros c _. unfold test. cbn. destruct utf8, (ascii s), (c <? 128); reflexivity.
  - cbn [args_ok forallb] in ha. apply andb_true_iff in ha. destruct ha as [h1 ha].
    apply andb_true_iff in h1. destruct h1 as [h1 h3]. apply andb_true_iff in h1. destruct h1 as [h1 h2].
    specialize (IH ha). assert (P := parse_ok a h1 h2). cbn [parse_all].
    destruct (parse a) as [t|]; [|cbn [forallb]; rewrite P; reflexivity]. destruct P as [hg [hch hby]].
    destruct (parse_all r) as [ts|]; [|cbn [forallb]; rewrite IH; apply andb_false_r]. destruct IH as [hg' IH].
    split; [cbn [forallb]; rewrite hg, hg'; reflexivity|].
    intros c hc. specialize (IH c hc). assert (c0 := forallb_in _ _ _ hs hc). cbn beta in c0. apply Z.leb_le in c0.
    cbn [forallb]. rewrite <- IH. clear IH. unfold test. cbn [forallb].
    destruct utf8.
    + destruct (ascii s) eqn:ea.
      * assert (A := forallb_in _ _ _ ea hc). cbn beta in A. apply Z.ltb_lt in A. rewrite hby by lia. reflexivity.
      * rewrite hch by lia. reflexivity.
    + cbn [orb] in h3. destruct (Z.ltb_spec c 128); [rewrite hby by lia; reflexivity|].
      rewrite hch by lia. f_equal. unfold in_set. destruct a; [reflexivity|].
      rewrite !(ascii_not_in _ _ (listed_ascii _ h3)) by lia. reflexivity.
Qed.

Lemma count_eq utf8 s args : args_ok utf8 args = true -> chars_ok s = true -> count utf8 s args = ruby_count s args.
Proof.
  intros ha hs. assert (P := parse_all_ok utf8 args s ha hs). unfold count, ruby_count.
  destruct (parse_all args) as [ts|]; [|rewrite P; reflexivity]. destruct P as [hg P]. rewrite hg.
  do 3 f_equal. apply filter_ext_in. exact P.
Qed.
Lemma delete_eq utf8 s args : args_ok utf8 args = true -> chars_ok s = true -> s <> [] -> delete utf8 s args = ruby_delete s args.
Proof.
  intros ha hs hn. assert (P := parse_all_ok utf8 args s ha hs). unfold delete, ruby_delete.
  destruct s as [|c s]; [congruence|]. set (l := c :: s) in *.
  destruct (parse_all args) as [ts|]; [|rewrite P; reflexivity]. destruct P as [hg P]. rewrite hg.
  f_equal. apply filter_ext_in. intros x hx. rewrite (P x hx). reflexivity.
Qed.
Lemma squeezing_eq f (h : Z -> bool) s : (forall c, In c s -> f c = h c) -> forall prev, squeezing f prev s =
  map snd (filter (fun p => negb (match fst p with Some q => q =? snd p | None => false end && h (snd p))) (combine (prev :: map Some s) s)).
Proof.
  induction s as [|c s IH]; intros hf prev; [reflexivity|].
  specialize (IH (fun x hx => hf x (or_intror hx))).
  cbn [squeezing map]. rewrite (hf c (or_introl eq_refl)).
  change (combine (prev :: Some c :: map Some s) (c :: s)) with ((prev, c) :: combine (Some c :: map Some s) s).
  cbn [filter fst snd]. destruct prev as [q|].
  - rewrite (Z.eqb_sym q c). rewrite (andb_comm (c =? q)). destruct (Z.eqb_spec c q) as [->|].
    + rewrite andb_true_r. destruct (h q); cbn [negb]; [exact (IH (Some q))|]. cbn [map snd]. rewrite (IH (Some q)). reflexivity.
    + rewrite andb_false_r. cbn [negb map snd]. rewrite (IH (Some c)). reflexivity.
  - rewrite andb_false_r. cbn [andb negb map snd]. rewrite (IH (Some c)). reflexivity.
Qed.
Lemma squeeze_eq utf8 s args : args_ok utf8 args = true -> chars_ok s = true -> squeeze utf8 s args = ruby_squeeze s args.
Proof.
  intros ha hs. assert (P := parse_all_ok utf8 args s ha hs). unfold squeeze, ruby_squeeze.
  destruct (parse_all args) as [ts|]; [|rewrite P; reflexivity]. destruct P as [hg P]. rewrite hg.
  f_equal. apply (squeezing_eq _ (fun c => forallb (fun a => in_set a c) args)). intros c hc. destruct args; [reflexivity|exact (P c hc)].
Qed.

(** tr *)
Definition tr_ok (utf8 : bool) (from to : chars) : bool :=
  plain_set from && plain_set to && caretless to && valid to && chars_ok from && chars_ok to && (utf8 || ascii from).
Definition acting (from to : chars) (c : Z) : act :=
  match to with [] => if in_set from c then Drop else Keep | _ => putf (replacement from to) c end.
Lemma walk_acting sq f s from to : s <> [] -> good_set from = true -> good_to from to = true -> (forall c, In c s -> f c = acting from to c) ->
  Some (walk sq f None s) = ruby_tr s from to sq.
Proof.
  intros hs hg ht hf. unfold ruby_tr. destruct s as [|c s]; [congruence|]. set (l := c :: s) in *.
  destruct to as [|t to]; [rewrite hg; f_equal; apply walk_drop; exact hf|].
  rewrite hg, ht. cbn [andb]. f_equal. apply walk_put. exact hf.
Qed.
Lemma valid_readable l : forall n, forallb fine l = true -> readable n l = true.
Proof.
  induction l as [|i l IH]; intros n h; [destruct n; reflexivity|]. cbn [forallb] in h. apply andb_true_iff in h. destruct h as [h1 h2].
  destruct n; [reflexivity|]. cbn [readable]. rewrite h1, (IH _ h2). reflexivity.
Qed.
Lemma valid_good_to from to : valid to = true -> good_to from to = true.
Proof. intros h. unfold good_to. destruct (turned from); [exact h|exact (valid_readable _ _ h)]. Qed.
Lemma tr_eq utf8 s from to sq : tr_ok utf8 from to = true -> chars_ok s = true -> s <> [] -> tr utf8 s from to sq = ruby_tr s from to sq.
Proof.
  intros ho hs hn. unfold tr_ok in ho.
  apply andb_true_iff in ho. destruct ho as [ho ha]. apply andb_true_iff in ho. destruct ho as [ho hct].
  apply andb_true_iff in ho. destruct ho as [ho hcf]. apply andb_true_iff in ho. destruct ho as [ho hv].
  apply andb_true_iff in ho. destruct ho as [ho hca]. apply andb_true_iff in ho. destruct ho as [hpf hpt].
  assert (it : inside to = to) by (unfold inside; unfold caretless in hca; apply negb_true_iff in hca; rewrite hca; reflexivity).
  assert (gt : good_set to = true) by (unfold good_set; rewrite it; exact hv).
  assert (gto := valid_good_to from to hv).
  assert (ef := expand_spec_eq from hpf). assert (et := expand_spec_eq to hpt). rewrite gt, it in et.
  unfold tr, fast, translate, translate_bytes, build. rewrite ef, et.
  destruct (good_set from) eqn:gf.
  2: { assert (E : ruby_tr s from to sq = None) by (unfold ruby_tr; destruct s as [|c s]; [congruence|]; destruct to; rewrite gf; reflexivity).
       rewrite E. destruct (ascii s); cbn [negb]; destruct utf8; reflexivity. }
  set (fs := listed (inside from)) in *. set (n := turned from) in *. set (ts := listed to) in *.
  assert (hfs : chars_ok fs = true) by exact (listed_ok from hcf).
  assert (IS : forall c, in_set from c = xorb (in_list c fs) n).
  { intros c. unfold in_set. destruct from; [reflexivity|reflexivity]. }
  assert (RP : forall c, replacement from to c = if n then if in_list c fs then None else Some (last ts 0) else table (pairs 0 fs ts (last ts 0)) c).
  { intros c. unfold replacement. fold fs ts n. destruct n; [reflexivity|]. rewrite table_find.
    rewrite (pairs_eq fs 0 ts (last ts 0) (length fs)) by lia. reflexivity. }
  (* the character path *)
  assert (SL : forall c m, (match to with [] => Some (MDelete fs n)
                  | _ :: _ => Some (if n then MNeg fs (last ts 0) else MMap (fold_left (fun m p => put m (fst p) (snd p)) (pairs 0 fs ts (last ts 0)) [])) end) = Some m ->
                  act_of m c = acting from to c).
  { intros c m hm. unfold acting. destruct to as [|t0 to0].
    - injection hm as <-. cbn [act_of]. rewrite IS. reflexivity.
    - injection hm as <-. unfold putf. rewrite RP. destruct n; cbn [act_of]; [destruct (in_list c fs); reflexivity|].
      rewrite find_fold. reflexivity. }
  assert (GEN : match (match to with [] => Some (MDelete fs n)
                  | _ :: _ => Some (if n then MNeg fs (last ts 0) else MMap (fold_left (fun m p => put m (fst p) (snd p)) (pairs 0 fs ts (last ts 0)) [])) end) with
                | Some m => if utf8 then Some (walk sq (act_of m) None s) else Some (walk sq (fun c => act_of m (if c <? 128 then c else 0xFFFF)) None s)
                | None => None end = ruby_tr s from to sq).
  { destruct (match to with [] => Some (MDelete fs n)
                  | _ :: _ => Some (if n then MNeg fs (last ts 0) else MMap (fold_left (fun m p => put m (fst p) (snd p)) (pairs 0 fs ts (last ts 0)) [])) end) as [m|] eqn:em.
    2: { destruct to; discriminate. }
    destruct utf8.
    - apply walk_acting; [exact hn|exact gf|exact gto|]. intros c _. exact (SL c m eq_refl).
    - apply walk_acting; [exact hn|exact gf|exact gto|]. intros c _. rewrite (SL _ m eq_refl).
      destruct (Z.ltb_spec c 128); [reflexivity|]. cbn [orb] in ha.
      assert (hasc : ascii fs = true) by exact (listed_ascii from ha).
      assert (N1 := ascii_not_in fs c hasc ltac:(lia)). assert (N2 := ascii_not_in fs 0xFFFF hasc ltac:(lia)).
      unfold acting. rewrite !IS, N1, N2. destruct to; [reflexivity|]. unfold putf. rewrite !RP, N1, N2. destruct n; [reflexivity|].
      assert (T : forall d, in_list d fs = false -> forall i, table (pairs i fs ts (last ts 0)) d = None).
      { intros d hd. unfold table. clear -hd. induction fs as [|x fs IH]; intros i; [reflexivity|].
        unfold in_list in hd. cbn [existsb] in hd. apply orb_false_iff in hd. destruct hd as [h1 h2]. rewrite Z.eqb_sym in h1.
        cbn [pairs fold_left fst snd]. rewrite h1. exact (IH h2 (S i)). }
      rewrite (T c N1), (T _ N2). reflexivity. }
  assert (GEN' : (if utf8 then match (match to with [] => Some (MDelete fs n)
                  | _ :: _ => Some (if n then MNeg fs (last ts 0) else MMap (fold_left (fun m p => put m (fst p) (snd p)) (pairs 0 fs ts (last ts 0)) [])) end) with
                | Some m => Some (walk sq (act_of m) None s) | None => None end
             else match (match to with [] => Some (MDelete fs n)
                  | _ :: _ => Some (if n then MNeg fs (last ts 0) else MMap (fold_left (fun m p => put m (fst p) (snd p)) (pairs 0 fs ts (last ts 0)) [])) end) with
                | Some m => Some (walk sq (fun c => act_of m (if c <? 128 then c else 0xFFFF)) None s) | None => None end) = ruby_tr s from to sq).
  { rewrite <- GEN. destruct (match to with [] => _ | _ => _ end); destruct utf8; reflexivity. }
  destruct (ascii s) eqn:as_; cbn [negb]; [|exact GEN'].
  destruct (ascii fs) eqn:af; cbn [negb]; [|exact GEN'].
  assert (BM : forall c, In c s -> get_bit (bitmap fs) c = in_list c fs).
  { intros c hc. assert (A := forallb_in _ _ _ as_ hc). cbn beta in A. apply Z.ltb_lt in A.
    assert (B := forallb_in _ _ _ hs hc). cbn beta in B. apply Z.leb_le in B. apply get_bitmap; [lia|].
    apply forallb_forall. intros x hx. assert (A1 := forallb_in _ _ _ af hx). assert (B1 := forallb_in _ _ _ hfs hx).
    cbn beta in A1, B1. rewrite A1, B1. reflexivity. }
  clear GEN SL. destruct to as [|t0 to0] eqn:eto.
  - apply walk_acting; [exact hn|exact gf|exact gto|]. intros c hc. rewrite BM by exact hc. unfold acting. rewrite IS. reflexivity.
  - destruct (ascii ts); cbn [negb]; [|exact GEN'].
    destruct n eqn:en; (apply walk_acting; [exact hn|exact gf|exact gto|]); intros c hc; unfold acting, putf; rewrite RP.
    + rewrite BM by exact hc. destruct (in_list c fs); reflexivity.
    + reflexivity.
Qed.
