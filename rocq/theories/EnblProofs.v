(** Proofs about Enumerable and Comparable. *)
From Coq Require Import ZArith List Bool Lia Floats.SpecFloat.
From Verif Require Import IntModel AseqModel FintModel EnblModel EnblSpec.
Import ListNotations.
Local Open Scope Z_scope.

Lemma snoc_eq {A} (p : list A) x s : (p ++ [x]) ++ s = p ++ x :: s.
Proof. rewrite <- app_assoc. reflexivity. Qed.

Lemma snoc_len {A} (p : list A) x : length (p ++ [x]) = S (length p).
Proof. rewrite app_length. cbn. lia. Qed.

(* ------------------------------------------------------------------ *)
(** ** Slices *)

Lemma slice_go_ok {A} n (l : list A) : forall cur, (length cur < n)%nat ->
  sliced n (cur ++ l) (slice_go n cur l).
Proof.
  induction l as [|x r IH]; intros cur Hc; cbn [slice_go].
  - rewrite app_nil_r. destruct cur as [|y c]; [constructor|].
    apply sliced_last; [discriminate|exact Hc].
  - rewrite <- snoc_eq. destruct (Nat.eqb_spec (length (cur ++ [x])) n) as [E|E].
    + apply sliced_more; [exact E|]. apply (IH []). cbn. lia.
    + apply IH. rewrite snoc_len in *. lia.
Qed.

Lemma each_slice_ok {A} n (l : list A) : 0 < n ->
  exists o, each_slice n l = Val o /\ sliced (Z.to_nat n) l o.
Proof.
  intros Hn. unfold each_slice. rewrite (proj2 (Z.leb_gt n 0)) by exact Hn.
  eexists. split; [reflexivity|]. apply (slice_go_ok (Z.to_nat n) l []). cbn. lia.
Qed.

(** There is only one way to slice. *)
Lemma sliced_unique {A} n (l : list A) o : (0 < n)%nat -> sliced n l o -> forall o', sliced n l o' -> o = o'.
Proof.
  intros Hn H. induction H as [|s Hs Hl|s l o Hs H IH]; intros o' H'.
  - inversion H' as [|s' Hs'|s' l' o0 Hs' H0 E]; subst; [reflexivity|congruence|].
    destruct s'; [cbn in Hn; lia|discriminate].
  - inversion H' as [E|s' Hs' Hl'|s' l' o0 Hs' H0 E]; subst; [congruence|reflexivity|].
    rewrite app_length in Hl. lia.
  - inversion H' as [E|s' Hs' Hl' E|s' l' o0 Hs' H0 E]; subst.
    + destruct s; [cbn in Hn; lia|discriminate].
    + rewrite app_length in Hl'. lia.
    + assert (G : s' = s /\ l' = l).
      { clear -E Hs'. revert s E Hs'. induction s' as [|a s' IH']; intros [|b s] E Hs'; cbn in *; try lia.
        - split; [reflexivity|exact E].
        - injection E as -> E. injection Hs' as Hs'. destruct (IH' s E Hs') as (-> & ->). auto. }
      destruct G as (-> & ->). f_equal. apply IH. exact H0.
Qed.

Lemma sliced_concat {A} n (l : list A) o : sliced n l o -> concat o = l.
Proof.
  intros H. induction H; cbn; [reflexivity|rewrite app_nil_r; reflexivity|].
  rewrite IHsliced. reflexivity.
Qed.

(** From a full buffer on, each element gives a window. *)
Lemma cons_full {A} n : forall (l buf : list A), length buf = n -> (0 < n)%nat ->
  cons_go n buf l = map (fun i => firstn n (skipn i (buf ++ l))) (seq 1 (length l)).
Proof.
  induction l as [|x r IH]; intros buf Hb Hn; [reflexivity|].
  cbn [cons_go]. rewrite snoc_len.
  rewrite (proj2 (Nat.ltb_lt n (S (length buf)))) by lia.
  destruct buf as [|b buf]; [cbn in Hb; lia|]. cbn [app tl].
  assert (Hl : length (buf ++ [x]) = n) by (rewrite snoc_len; exact Hb).
  rewrite (proj2 (Nat.eqb_eq _ _) Hl). rewrite IH by assumption.
  cbn [length]. cbn [seq map]. f_equal.
  - cbn [skipn app]. rewrite <- (snoc_eq buf x r). rewrite firstn_app, Hl, Nat.sub_diag.
    rewrite firstn_all2 by lia. cbn. rewrite app_nil_r. reflexivity.
  - rewrite <- (seq_shift (length r) 1), map_map. apply map_ext. intros i.
    cbn [skipn]. rewrite snoc_eq. reflexivity.
Qed.

Lemma cons_fill {A} n : forall (l buf : list A), (length buf < n)%nat ->
  cons_go n buf l = windows n (buf ++ l).
Proof.
  induction l as [|x r IH]; intros buf Hb.
  - cbn [cons_go]. unfold windows. rewrite app_nil_r.
    replace (S (length buf) - n)%nat with 0%nat by lia. reflexivity.
  - cbn [cons_go]. rewrite snoc_len.
    rewrite (proj2 (Nat.ltb_ge n (S (length buf)))) by lia. rewrite snoc_len.
    destruct (Nat.eqb_spec (S (length buf)) n) as [E|E].
    + assert (Hl : length (buf ++ [x]) = n) by (rewrite snoc_len; exact E).
      rewrite cons_full by (assumption || lia). unfold windows.
      rewrite <- (snoc_eq buf x r). rewrite app_length, Hl.
      replace (S (n + length r) - n)%nat with (S (length r)) by lia.
      cbn [seq map skipn]. f_equal.
      rewrite firstn_app, Hl, Nat.sub_diag, firstn_all2 by lia. cbn. rewrite app_nil_r. reflexivity.
    + rewrite IH by (rewrite snoc_len; lia). rewrite snoc_eq. reflexivity.
Qed.

Lemma each_cons_ok {A} n (l : list A) : 0 < n -> each_cons n l = Val (windows (Z.to_nat n) l).
Proof.
  intros Hn. unfold each_cons. rewrite (proj2 (Z.leb_gt n 0)) by exact Hn.
  rewrite cons_fill by (cbn; lia). reflexivity.
Qed.

(* ------------------------------------------------------------------ *)
(** ** chunk *)

Lemma span_length {A} (p : A -> bool) l a b : span p l = (a, b) -> (length b <= length l)%nat.
Proof.
  revert a b. induction l as [|x r IH]; intros a b H; cbn in H; [injection H as <- <-; cbn; lia|].
  destruct (p x).
  - destruct (span p r) as [a' b']. injection H as <- <-. specialize (IH a' b' eq_refl). cbn. lia.
  - injection H as <- <-. cbn. lia.
Qed.

Definition quiet {A K} (key : A -> ckey K) (l : list A) : Prop :=
  forall x, In x l -> key x <> KReserved.

Lemma span_in {A} (p : A -> bool) l a b x : span p l = (a, b) -> In x b -> In x l.
Proof.
  revert a b. induction l as [|y r IH]; intros a b H Hx; cbn in H; [injection H as <- <-; exact Hx|].
  destruct (p y).
  - destruct (span p r) as [a' b']. injection H as <- <-. right. eapply IH; [reflexivity|exact Hx].
  - injection H as <- <-. exact Hx.
Qed.

Lemma chunk_go_ok {A K} (keq : K -> K -> bool) (key : A -> ckey K) : forall fuel l,
  (length l <= fuel)%nat -> quiet key l ->
  chunk_go keq key None l = (chunks keq key fuel l, false) /\
  forall k s, chunk_go keq key (Some (k, s)) l =
    let '(a, b) := span (fun y => match key y with KKey k' => keq k' k | _ => false end) l in
    ((Some k, s ++ a) :: chunks keq key fuel b, false).
Proof.
  induction fuel as [|f IH]; intros l Hl Hq.
  - destruct l; [|cbn in Hl; lia]. cbn. split; [reflexivity|]. intros k s. rewrite app_nil_r. reflexivity.
  - destruct l as [|x r]; [cbn; split; [reflexivity|]; intros k s; rewrite app_nil_r; reflexivity|].
    cbn [length] in Hl. assert (Hr : (length r <= f)%nat) by lia.
    assert (Hqr : quiet key r) by (intros y Hy; apply Hq; right; exact Hy).
    destruct (IH r Hr Hqr) as (I1 & I2).
    specialize (Hq x (or_introl eq_refl)).
    assert (Hcut : forall b, (length b <= S f)%nat -> (length b <= f)%nat -> quiet key b ->
              chunks keq key (S f) b = chunks keq key f b).
    { intros b _ Hb Hqb. destruct (IH b Hb Hqb) as (J1 & _).
      assert (G : forall fu b0, (length b0 <= fu)%nat -> chunks keq key (S fu) b0 = chunks keq key fu b0).
      { clear. induction fu as [|fu IHf]; intros b0 Hb0.
        - destruct b0; [reflexivity|cbn in Hb0; lia].
        - destruct b0 as [|y b0]; [reflexivity|]. cbn [length] in Hb0.
          change (chunks keq key (S (S fu)) (y :: b0)) with
            (match key y with
             | KReserved => []
             | KSep => chunks keq key (S fu) b0
             | KAlone => (None, [y]) :: chunks keq key (S fu) b0
             | KKey k =>
               let '(a, b) := span (fun y => match key y with KKey k' => keq k' k | _ => false end) b0 in
               (Some k, y :: a) :: chunks keq key (S fu) b
             end).
          cbn [chunks].
          destruct (key y); try reflexivity.
          + apply IHf. lia.
          + f_equal. apply IHf. lia.
          + destruct (span _ b0) as [a b] eqn:E. f_equal. apply IHf.
            pose proof (span_length _ _ _ _ E). lia. }
      apply G. exact Hb. }
    split.
    + cbn [chunk_go chunks]. destruct (key x) as [| | |k] eqn:Ek.
      * rewrite I1. reflexivity.
      * rewrite I1. reflexivity.
      * congruence.
      * rewrite I2. destruct (span _ r) as [a b]. reflexivity.
    + intros k s. cbn [chunk_go span]. destruct (key x) as [| | |k'] eqn:Ek.
      * rewrite I1. cbn [app]. rewrite app_nil_r. f_equal. f_equal.
        cbn [chunks]. rewrite Ek. reflexivity.
      * rewrite I1. cbn [app]. rewrite app_nil_r. f_equal. f_equal.
        cbn [chunks]. rewrite Ek. reflexivity.
      * congruence.
      * destruct (keq k' k) eqn:Eq.
        -- rewrite I2. destruct (span _ r) as [a b] eqn:Es. rewrite snoc_eq. f_equal. f_equal.
           symmetry. pose proof (span_length _ _ _ _ Es). apply Hcut; [lia|lia|].
           intros y Hy. apply Hqr. eapply span_in; eassumption.
        -- rewrite I2. rewrite app_nil_r. cbn [chunks]. rewrite Ek.
           destruct (span _ r) as [a b]. reflexivity.
Qed.

(** chunk gives the runs of equal keys. *)
Lemma chunk_ok {A K} (keq : K -> K -> bool) (key : A -> ckey K) l :
  (forall x, In x l -> key x <> KReserved) ->
  chunk keq key l = (chunks keq key (length l) l, false).
Proof. intros H. apply (chunk_go_ok keq key (length l) l (le_n _) H). Qed.

(** A reserved key raises. *)
Lemma chunk_reserved {A K} (keq : K -> K -> bool) (key : A -> ckey K) l :
  (exists x, In x l /\ key x = KReserved) -> snd (chunk keq key l) = true.
Proof.
  intros (x & Hx & Hk). unfold chunk. generalize (@None (K * list A)) as cur.
  induction l as [|y r IH]; intros cur; [destruct Hx|]. cbn [chunk_go].
  destruct (key y) as [| | |k] eqn:Ey.
  - destruct Hx as [->|Hx]; [congruence|]. specialize (IH Hx None).
    destruct (chunk_go keq key None r). exact IH.
  - destruct Hx as [->|Hx]; [congruence|]. specialize (IH Hx None).
    destruct (chunk_go keq key None r). exact IH.
  - reflexivity.
  - destruct Hx as [->|Hx]; [congruence|].
    destruct cur as [[k0 a]|].
    + destruct (keq k k0); [apply IH; exact Hx|].
      specialize (IH Hx (Some (k, [y]))). destruct (chunk_go keq key (Some (k, [y])) r). exact IH.
    + apply IH. exact Hx.
Qed.

(* ------------------------------------------------------------------ *)
(** ** chunk_while, slice_when, slice_before, slice_after *)

Lemma cut_go_pre {A} (cut : A -> A -> bool) : forall l p c prev,
  cut_go cut (p ++ c) prev l =
    match cut_go cut c prev l with s :: o => (p ++ s) :: o | [] => [] end.
Proof.
  induction l as [|x r IH]; intros p c prev; cbn [cut_go]; [reflexivity|].
  destruct (cut prev x); [reflexivity|]. rewrite <- app_assoc. apply IH.
Qed.

Lemma cut_go_ok {A} (cut : A -> A -> bool) : forall l x, cuts cut (x :: l) (cut_go cut [x] x l).
Proof.
  induction l as [|y r IH]; intros x; cbn [cut_go]; [constructor|].
  destruct (cut x y) eqn:E.
  - apply cuts_new; [exact E|apply IH].
  - cbn [app]. change [x; y] with ([x] ++ [y]). rewrite cut_go_pre. specialize (IH y).
    destruct (cut_go cut [y] y r) as [|s o]; [inversion IH|].
    apply cuts_on; assumption.
Qed.

Lemma cuts_unique {A} (cut : A -> A -> bool) l o : cuts cut l o -> forall o', cuts cut l o' -> o = o'.
Proof.
  intros H. induction H as [x|x y l o E H IH|x y l s o E H IH]; intros o' H'; inversion H'; subst; try congruence.
  - f_equal. apply IH. assumption.
  - assert (G : s :: o = s0 :: o0) by (apply IH; assumption). injection G as -> ->. reflexivity.
Qed.

Lemma chunk_while_ok {A} (p : A -> A -> bool) x (l : list A) :
  cuts (fun a b => negb (p a b)) (x :: l) (chunk_while p (x :: l)).
Proof. apply cut_go_ok. Qed.

Lemma slice_when_ok {A} (p : A -> A -> bool) x (l : list A) :
  cuts p (x :: l) (slice_when p (x :: l)).
Proof. apply cut_go_ok. Qed.

Lemma cuts_concat {A} (cut : A -> A -> bool) l o : cuts cut l o -> concat o = l.
Proof.
  intros H. induction H; cbn in *; [reflexivity| |]; rewrite IHcuts; reflexivity.
Qed.

Lemma before_go_ok {A} (b : bound A) : (forall f, b <> NilPattern f) -> forall l c,
  c <> [] -> Forall (fun x => pred_of b x = false) (tl c) ->
  exists s o, before_go b (Some c) l = Val (s :: o) /\
    concat (s :: o) = c ++ l /\ (exists r, s = c ++ r) /\ Forall (fun s => s <> []) (s :: o) /\
    Forall (fun s => Forall (fun x => pred_of b x = false) (tl s)) (s :: o) /\
    Forall (fun s => exists x r, s = x :: r /\ pred_of b x = true) o.
Proof.
  intros Hb. assert (Hh : forall x, hit b x = Some (pred_of b x)) by (intros x; destruct b; [reflexivity|reflexivity|exfalso; eapply Hb; reflexivity]).
  induction l as [|x r IH]; intros c Hc Ht; cbn [before_go].
  - exists c, []. repeat split; auto.
    + exists []. rewrite app_nil_r. reflexivity.
  - rewrite Hh. destruct (pred_of b x) eqn:E.
    + destruct (IH [x]) as (s & o & G1 & G2 & (r' & G3) & G4 & G5 & G6); [discriminate|constructor|].
      rewrite G1. exists c, (s :: o). split; [reflexivity|]. split; [|split; [|split; [|split]]].
      * change (concat (c :: s :: o)) with (c ++ concat (s :: o)). rewrite G2. reflexivity.
      * exists []. rewrite app_nil_r. reflexivity.
      * constructor; assumption.
      * constructor; assumption.
      * constructor; [|exact G6]. exists x, r'. split; [exact G3|exact E].
    + destruct (IH (c ++ [x])) as (s & o & G1 & G2 & (r' & G3) & G4 & G5 & G6).
      * destruct c; discriminate.
      * destruct c as [|y c]; [congruence|]. cbn [app tl] in *. apply Forall_app. split; [exact Ht|].
        constructor; [exact E|constructor].
      * exists s, o. split; [exact G1|]. split; [rewrite G2; apply snoc_eq|].
        split; [exists (x :: r'); rewrite G3; apply snoc_eq|]. auto.
Qed.

(** slice_before begins a slice at each element that fits, and nowhere else
    but at the first element. *)
Lemma slice_before_ok {A} (b : bound A) l : (forall f, b <> NilPattern f) ->
  exists o, slice_before b l = Val o /\ before (pred_of b) l o.
Proof.
  intros Hb. unfold slice_before. destruct l as [|x r].
  - exists []. split; [reflexivity|]. repeat split; constructor.
  - assert (Hh : hit b x = Some (pred_of b x)) by (destruct b; [reflexivity|reflexivity|exfalso; eapply Hb; reflexivity]).
    destruct (before_go_ok b Hb r [x]) as (s & o & G1 & G2 & _ & G4 & G5 & G6); [discriminate|constructor|].
    exists (s :: o). split.
    + cbn [before_go]. rewrite Hh. destruct (pred_of b x); rewrite G1; reflexivity.
    + split; [exact G2|]. split; [exact G4|]. split; [exact G5|exact G6].
Qed.

Lemma butlast_snoc {A} (l : list A) x : butlast (l ++ [x]) = l.
Proof.
  unfold butlast. rewrite snoc_len. replace (S (length l) - 1)%nat with (length l) by lia.
  rewrite firstn_app, Nat.sub_diag, firstn_all. cbn. apply app_nil_r.
Qed.

Lemma butlast_in {A} (l : list A) x : In x (butlast l) -> In x l.
Proof.
  unfold butlast. intros H. rewrite <- (firstn_skipn (length l - 1) l). apply in_or_app. left. exact H.
Qed.

Lemma after_go_ok {A} (b : bound A) : (forall f, b <> NilPattern f) -> forall l c,
  Forall (fun x => pred_of b x = false) c ->
  exists o, after_go b c l = Val o /\ after (pred_of b) (c ++ l) o.
Proof.
  intros Hb. assert (Hh : forall x, hit b x = Some (pred_of b x)) by (intros x; destruct b; [reflexivity|reflexivity|exfalso; eapply Hb; reflexivity]).
  induction l as [|x r IH]; intros c Hc; cbn [after_go].
  - rewrite app_nil_r. destruct c as [|y c].
    + exists []. split; [reflexivity|]. repeat split; constructor.
    + exists [y :: c]. split; [reflexivity|]. split; [cbn; rewrite app_nil_r; reflexivity|].
      split; [repeat constructor; discriminate|]. split; [|constructor].
      constructor; [|constructor]. apply Forall_forall. intros z Hz.
      rewrite Forall_forall in Hc. apply Hc. apply butlast_in. exact Hz.
  - rewrite Hh. destruct (pred_of b x) eqn:E.
    + destruct (IH []) as (o & G1 & (G2 & G3 & G4 & G5)); [constructor|].
      rewrite G1. exists ((c ++ [x]) :: o). split; [reflexivity|]. split.
      * cbn [concat]. rewrite G2. cbn [app]. apply snoc_eq.
      * split; [constructor; [destruct c; discriminate|exact G3]|]. split.
        -- constructor; [rewrite butlast_snoc; exact Hc|exact G4].
        -- unfold butlast in *. cbn [length]. replace (S (length o) - 1)%nat with (length o) by lia.
           destruct o as [|s o]; [constructor|]. cbn [length firstn] in *.
           replace (S (length o) - 1)%nat with (length o) in G5 by lia.
           constructor; [|exact G5]. exists x, c. split; [reflexivity|exact E].
    + destruct (IH (c ++ [x])) as (o & G1 & G2).
      * apply Forall_app. split; [exact Hc|]. constructor; [exact E|constructor].
      * exists o. split; [exact G1|]. rewrite snoc_eq in G2. exact G2.
Qed.

(** slice_after ends a slice at each element that fits. *)
Lemma slice_after_ok {A} (b : bound A) l : (forall f, b <> NilPattern f) ->
  exists o, slice_after b l = Val o /\ after (pred_of b) l o.
Proof. intros Hb. apply (after_go_ok b Hb l []). constructor. Qed.

(* ------------------------------------------------------------------ *)
(** ** Selecting *)

Lemma take_go_ok {A} n : forall (l got : list A) asked, (length got < n)%nat ->
  take_go n got asked l =
    (got ++ firstn (n - length got) l, asked + Nat.min (n - length got) (length l))%nat.
Proof.
  induction l as [|x r IH]; intros got asked H; cbn [take_go].
  - rewrite firstn_nil, app_nil_r. f_equal. cbn. lia.
  - rewrite snoc_len. destruct (Nat.leb_spec n (S (length got))) as [G|G].
    + replace (n - length got)%nat with 1%nat by lia. cbn [firstn]. f_equal. cbn. lia.
    + rewrite IH by (rewrite snoc_len; lia). rewrite snoc_len.
      replace (n - length got)%nat with (S (n - S (length got))) by lia. cbn [firstn].
      rewrite snoc_eq. f_equal. cbn [length]. lia.
Qed.

(** take(n) gives the first n elements and asks for no more than these. *)
Lemma take_ok {A} n (l : list A) : 0 <= n ->
  take n l = Val (firstn (Z.to_nat n) l, Nat.min (Z.to_nat n) (length l)).
Proof.
  intros H. unfold take. rewrite (proj2 (Z.ltb_ge n 0)) by exact H.
  destruct (Z.eqb_spec n 0) as [->|]; [reflexivity|].
  rewrite take_go_ok by (cbn; lia). cbn [length app]. rewrite Nat.sub_0_r. reflexivity.
Qed.

Lemma partition_go_ok {A} (p : A -> bool) : forall l yes no,
  partition_go p yes no l = (yes ++ filter p l, no ++ filter (fun x => negb (p x)) l).
Proof.
  induction l as [|x r IH]; intros yes no; cbn [partition_go filter].
  - rewrite !app_nil_r. reflexivity.
  - destruct (p x); cbn [negb]; rewrite IH, snoc_eq; reflexivity.
Qed.

Lemma partition_ok {A} (p : A -> bool) l :
  partition p l = (filter p l, filter (fun x => negb (p x)) l).
Proof. apply (partition_go_ok p l [] []). Qed.

(** ** group_by *)

Lemma upsert_keys {K V} (keq : K -> K -> bool) k (new : V) g h : decides keq ->
  map fst (upsert keq k new g h) = if existsb (fun k0 => keq k0 k) (map fst h) then map fst h else map fst h ++ [k].
Proof.
  intros Hk. induction h as [|[k0 v] r IH]; [reflexivity|]. cbn [upsert map fst existsb].
  destruct (keq k0 k); [reflexivity|]. cbn [map fst orb]. rewrite IH.
  destruct (existsb _ (map fst r)); reflexivity.
Qed.

Lemma upsert_get {K V} (keq : K -> K -> bool) k (new : V) g h : decides keq -> forall k' v',
  NoDup (map fst h) ->
  (In (k', v') (upsert keq k new g h) <->
   (k' <> k /\ In (k', v') h) \/
   (k' = k /\ ((exists v, In (k, v) h /\ v' = g v) \/ (~ In k (map fst h) /\ v' = new)))).
Proof.
  intros Hk k' v'. induction h as [|[k0 v] r IH]; intros Hn; cbn [upsert].
  - cbn. split.
    + intros [H|[]]. injection H as <- <-. right. split; [reflexivity|]. right. split; [tauto|reflexivity].
    + intros [(_ & [])|(-> & [(v & [] & _)|(_ & ->)])]. left. reflexivity.
  - cbn [map fst] in Hn. inversion Hn as [|? ? Hx Hn']; subst.
    destruct (keq k0 k) eqn:E.
    + apply Hk in E. subst k0. cbn [In map fst]. split.
      * intros [H|H].
        -- injection H as <- <-. right. split; [reflexivity|]. left. exists v. split; [left; reflexivity|reflexivity].
        -- left. split; [|right; exact H]. intros ->. apply Hx. apply (in_map fst) in H. exact H.
      * intros [(Hne & [H|H])|(-> & [(v0 & [H|H] & ->)|(H & _)])].
        -- injection H as -> ->. congruence.
        -- right. exact H.
        -- injection H as ->. left. reflexivity.
        -- exfalso. apply Hx. apply (in_map fst) in H. exact H.
        -- exfalso. apply H. left. reflexivity.
    + assert (Hne : k0 <> k) by (intros H; apply Hk in H; congruence).
      cbn [In map fst]. rewrite (IH Hn'). split.
      * intros [H|[(H1 & H2)|(-> & [(v0 & H1 & H2)|(H1 & H2)])]].
        -- injection H as <- <-. left. split; [exact Hne|left; reflexivity].
        -- left. split; [exact H1|right; exact H2].
        -- right. split; [reflexivity|]. left. exists v0. split; [right; exact H1|exact H2].
        -- right. split; [reflexivity|]. right. split; [|exact H2]. intros [G|G]; [congruence|auto].
      * intros [(H1 & [H2|H2])|(-> & [(v0 & [H1|H1] & H2)|(H1 & H2)])].
        -- left. exact H2.
        -- right. left. split; assumption.
        -- injection H1 as -> ->. congruence.
        -- right. right. split; [reflexivity|]. left. exists v0. split; assumption.
        -- right. right. split; [reflexivity|]. right. split; [|exact H2]. intros G. apply H1. right. exact G.
Qed.

Lemma existsb_keys {K} (keq : K -> K -> bool) k l : decides keq ->
  existsb (fun k0 => keq k0 k) l = true <-> In k l.
Proof.
  intros Hk. rewrite existsb_exists. split.
  - intros (x & Hx & E). apply Hk in E. subst. exact Hx.
  - intros H. exists k. split; [exact H|]. apply Hk. reflexivity.
Qed.

(** group_by: a group for each key, with the elements of that key in order;
    no group is empty and no key comes twice. *)
Lemma group_by_ok {A K} (keq : K -> K -> bool) (f : A -> K) l : decides keq ->
  NoDup (map fst (group_by keq f l)) /\
  forall k g, In (k, g) (group_by keq f l) <->
    g <> [] /\ g = filter (fun x => keq (f x) k) l.
Proof.
  intros Hk. unfold group_by.
  assert (G : forall l h done, NoDup (map fst h) ->
    (forall k g, In (k, g) h <-> g <> [] /\ g = filter (fun x => keq (f x) k) done) ->
    NoDup (map fst (fold_left (fun h x => upsert keq (f x) [x] (fun v => v ++ [x]) h) l h)) /\
    (forall k g, In (k, g) (fold_left (fun h x => upsert keq (f x) [x] (fun v => v ++ [x]) h) l h) <->
       g <> [] /\ g = filter (fun x => keq (f x) k) (done ++ l))).
  { clear l. induction l as [|x r IH]; intros h done Hn Hh.
    - cbn [fold_left]. rewrite app_nil_r. split; assumption.
    - cbn [fold_left]. rewrite <- snoc_eq. apply IH.
      + rewrite upsert_keys by exact Hk.
        destruct (existsb (fun k0 => keq k0 (f x)) (map fst h)) eqn:E; [exact Hn|].
        apply NoDup_rev in Hn. rewrite <- (rev_involutive (map fst h ++ [f x])). apply NoDup_rev.
        rewrite rev_app_distr. cbn. constructor; [|exact Hn].
        intros H. apply in_rev in H. apply (existsb_keys keq (f x) _ Hk) in H. congruence.
      + intros k g. rewrite upsert_get by assumption. rewrite filter_app. cbn [filter].
        split.
        * intros [(Hne & H)|(-> & [(v & H & ->)|(H & ->)])].
          -- apply Hh in H. destruct H as (H1 & H2). split; [exact H1|].
             destruct (keq (f x) k) eqn:E; [apply Hk in E; congruence|]. rewrite app_nil_r. exact H2.
          -- apply Hh in H. destruct H as (H1 & H2). split; [destruct v; discriminate|].
             rewrite (proj2 (Hk (f x) (f x)) eq_refl). rewrite H2 at 1. reflexivity.
          -- split; [discriminate|]. rewrite (proj2 (Hk (f x) (f x)) eq_refl).
             destruct (filter (fun x0 => keq (f x0) (f x)) done) as [|y t] eqn:E; [reflexivity|].
             exfalso. apply H. change (f x) with (fst (f x, y :: t)). apply in_map. apply Hh.
             split; [discriminate|]. symmetry. exact E.
        * intros (H1 & H2). destruct (keq (f x) k) eqn:E.
          -- apply Hk in E. subst k. right. split; [reflexivity|].
             destruct (filter (fun x0 => keq (f x0) (f x)) done) as [|y t] eqn:E2.
             ++ right. split; [|exact H2]. intros Hin. apply in_map_iff in Hin.
                destruct Hin as ([k0 v] & E3 & Hin). cbn in E3. subst k0. apply Hh in Hin.
                destruct Hin as (Hv & Hv2). rewrite E2 in Hv2. congruence.
             ++ left. exists (y :: t). split; [|exact H2]. apply Hh. split; [discriminate|].
                symmetry. exact E2.
          -- left. rewrite app_nil_r in H2. split.
             ++ intros ->. rewrite (proj2 (Hk (f x) (f x)) eq_refl) in E. discriminate.
             ++ apply Hh. split; assumption. }
  specialize (G l [] []). cbn [app] in G. apply G; [constructor|].
  intros k g. cbn. split; [intros []|intros (H1 & H2); congruence].
Qed.

(** ** uniq *)

Lemma uniq_go_ok {A K} (keq : K -> K -> bool) (f : A -> K) : decides keq -> forall l seen,
  NoDup (map f (uniq_go keq f seen l)) /\
  (forall x, In x (uniq_go keq f seen l) <->
     ~ In (f x) seen /\ find (fun y => keq (f y) (f x)) l = Some x).
Proof.
  intros Hk. induction l as [|y r IH]; intros seen; cbn [uniq_go].
  - split; [constructor|]. intros x. split; [intros []|intros (_ & H); discriminate].
  - destruct (existsb (fun k => keq k (f y)) seen) eqn:E.
    + destruct (IH seen) as (I1 & I2). split; [exact I1|]. intros x. rewrite I2. cbn [find].
      apply (existsb_keys keq (f y) _ Hk) in E. split.
      * intros (H1 & H2). split; [exact H1|].
        destruct (keq (f y) (f x)) eqn:Ey; [|exact H2]. apply Hk in Ey. congruence.
      * intros (H1 & H2). split; [exact H1|].
        destruct (keq (f y) (f x)) eqn:Ey; [|exact H2]. apply Hk in Ey. congruence.
    + assert (Hn : ~ In (f y) seen).
      { intros H. apply (existsb_keys keq (f y) _ Hk) in H. congruence. }
      destruct (IH (seen ++ [f y])) as (I1 & I2). split.
      * cbn [map]. constructor; [|exact I1]. intros H. apply in_map_iff in H.
        destruct H as (x & Ex & Hx). apply I2 in Hx. destruct Hx as (Hx & _). apply Hx.
        apply in_or_app. right. left. congruence.
      * intros x. cbn [In find]. rewrite I2. rewrite in_app_iff. cbn [In]. split.
        -- intros [->|(H1 & H2)].
           ++ split; [exact Hn|]. rewrite (proj2 (Hk (f x) (f x)) eq_refl). reflexivity.
           ++ split; [tauto|]. destruct (keq (f y) (f x)) eqn:Ey; [|exact H2].
              apply Hk in Ey. exfalso. apply H1. right. left. exact Ey.
        -- intros (H1 & H2). destruct (keq (f y) (f x)) eqn:Ey.
           ++ left. congruence.
           ++ right. split; [|exact H2]. intros [G|[G|[]]]; [auto|].
              rewrite (proj2 (Hk _ _) G) in Ey. discriminate.
Qed.

(** uniq keeps the first element of each key. *)
Lemma uniq_ok {A K} (keq : K -> K -> bool) (f : A -> K) l : decides keq ->
  NoDup (map f (uniq keq f l)) /\
  (forall x, In x (uniq keq f l) <-> find (fun y => keq (f y) (f x)) l = Some x).
Proof.
  intros Hk. destruct (uniq_go_ok keq f Hk l []) as (H1 & H2). split; [exact H1|].
  intros x. unfold uniq. rewrite H2. cbn. tauto.
Qed.

(** and keeps them in order. *)
Lemma uniq_go_sub {A K} (keq : K -> K -> bool) (f : A -> K) l : forall seen, sub (uniq_go keq f seen l) l.
Proof.
  induction l as [|x r IH]; intros seen; cbn [uniq_go]; [constructor|].
  destruct (existsb _ seen); constructor; apply IH.
Qed.

Lemma uniq_sub {A K} (keq : K -> K -> bool) (f : A -> K) l : sub (uniq keq f l) l.
Proof. apply uniq_go_sub. Qed.

(** The keys of group_by are in the order in which they come up. *)
Lemma group_by_order {A K} (keq : K -> K -> bool) (f : A -> K) l : decides keq ->
  map fst (group_by keq f l) = uniq keq (fun k => k) (map f l).
Proof.
  intros Hk. unfold group_by, uniq.
  assert (G : forall l (h : list (K * list A)),
    map fst (fold_left (fun h x => upsert keq (f x) [x] (fun v => v ++ [x]) h) l h) =
    map fst h ++ uniq_go keq (fun k => k) (map fst h) (map f l)).
  { clear l. induction l as [|x r IH]; intros h; cbn [fold_left map uniq_go].
    - rewrite app_nil_r. reflexivity.
    - rewrite IH, upsert_keys by exact Hk.
      destruct (existsb (fun k0 => keq k0 (f x)) (map fst h)); [reflexivity|].
      apply snoc_eq. }
  apply (G l []).
Qed.

(** ** min and max *)

Lemma find_app {A} (p : A -> bool) a b :
  find p (a ++ b) = match find p a with Some x => Some x | None => find p b end.
Proof. induction a as [|x a IH]; cbn; [reflexivity|]. destruct (p x); [reflexivity|exact IH]. Qed.

Lemma find_none {A} (p : A -> bool) l : (forall x, In x l -> p x = false) -> find p l = None.
Proof.
  induction l as [|x r IH]; intros H; cbn; [reflexivity|].
  rewrite (H x (or_introl eq_refl)). apply IH. intros y Hy. apply H. right. exact Hy.
Qed.

Lemma least_step {A} (rank : A -> Z) done m x : least rank done m ->
  least rank (done ++ [x]) (if rank x <? rank m then x else m).
Proof.
  intros (H1 & H2). destruct (Z.ltb_spec (rank x) (rank m)) as [H|H]; split.
  - intros y Hy. apply in_app_or in Hy. destruct Hy as [Hy|[<-|[]]]; [specialize (H1 y Hy)|]; lia.
  - rewrite find_app. rewrite find_none.
    + cbn. rewrite Z.eqb_refl. reflexivity.
    + intros y Hy. specialize (H1 y Hy). apply Z.eqb_neq. lia.
  - intros y Hy. apply in_app_or in Hy. destruct Hy as [Hy|[<-|[]]]; [specialize (H1 y Hy)|]; lia.
  - rewrite find_app, H2. reflexivity.
Qed.

Lemma greatest_step {A} (rank : A -> Z) done m x : greatest rank done m ->
  greatest rank (done ++ [x]) (if rank m <? rank x then x else m).
Proof.
  intros (H1 & H2). destruct (Z.ltb_spec (rank m) (rank x)) as [H|H]; split.
  - intros y Hy. apply in_app_or in Hy. destruct Hy as [Hy|[<-|[]]]; [specialize (H1 y Hy)|]; lia.
  - rewrite find_app. rewrite find_none.
    + cbn. rewrite Z.eqb_refl. reflexivity.
    + intros y Hy. specialize (H1 y Hy). apply Z.eqb_neq. lia.
  - intros y Hy. apply in_app_or in Hy. destruct Hy as [Hy|[<-|[]]]; [specialize (H1 y Hy)|]; lia.
  - rewrite find_app, H2. reflexivity.
Qed.

Lemma least_one {A} (rank : A -> Z) x : least rank [x] x.
Proof. split; [intros y [<-|[]]; lia|]. cbn. rewrite Z.eqb_refl. reflexivity. Qed.

Lemma greatest_one {A} (rank : A -> Z) x : greatest rank [x] x.
Proof. split; [intros y [<-|[]]; lia|]. cbn. rewrite Z.eqb_refl. reflexivity. Qed.

Lemma best_least {A K} (cmp : K -> K -> option Z) rank e (key : A -> K) : ranked cmp rank ->
  forall l done m, least (fun x => rank (key x)) done m ->
  exists m', best_go cmp (fun c => c <? 0) e key m l = Val (Some m') /\
    least (fun x => rank (key x)) (done ++ l) m'.
Proof.
  intros Hr. induction l as [|x r IH]; intros done m Hm; cbn [best_go].
  - exists m. rewrite app_nil_r. split; [reflexivity|exact Hm].
  - destruct (Hr (key x) (key m)) as (z & Ez & H1 & H2). rewrite Ez.
    rewrite <- snoc_eq. apply IH.
    replace (z <? 0) with (rank (key x) <? rank (key m)).
    + apply (least_step (fun x => rank (key x))). exact Hm.
    + destruct (Z.ltb_spec (rank (key x)) (rank (key m))), (Z.ltb_spec z 0); tauto || lia.
Qed.

Lemma best_greatest {A K} (cmp : K -> K -> option Z) rank e (key : A -> K) : ranked cmp rank ->
  forall l done m, greatest (fun x => rank (key x)) done m ->
  exists m', best_go cmp (fun c => 0 <? c) e key m l = Val (Some m') /\
    greatest (fun x => rank (key x)) (done ++ l) m'.
Proof.
  intros Hr. induction l as [|x r IH]; intros done m Hm; cbn [best_go].
  - exists m. rewrite app_nil_r. split; [reflexivity|exact Hm].
  - destruct (Hr (key x) (key m)) as (z & Ez & H1 & H2). rewrite Ez.
    rewrite <- snoc_eq. apply IH.
    replace (0 <? z) with (rank (key m) <? rank (key x)).
    + apply (greatest_step (fun x => rank (key x))). exact Hm.
    + destruct (Z.ltb_spec (rank (key m)) (rank (key x))), (Z.ltb_spec 0 z); tauto || lia.
Qed.

(** min, max, min_by and max_by give the first of the least (greatest)
    elements. *)
Lemma min_ok {A} (cmp : A -> A -> option Z) rank x (l : list A) : ranked cmp rank ->
  exists m, min cmp (x :: l) = Val (Some m) /\ least rank (x :: l) m.
Proof. intros Hr. apply (best_least cmp rank ArgErr (fun x => x) Hr l [x] x (least_one rank x)). Qed.

Lemma max_ok {A} (cmp : A -> A -> option Z) rank x (l : list A) : ranked cmp rank ->
  exists m, max cmp (x :: l) = Val (Some m) /\ greatest rank (x :: l) m.
Proof. intros Hr. apply (best_greatest cmp rank ArgErr (fun x => x) Hr l [x] x (greatest_one rank x)). Qed.

Lemma min_by_ok {A K} (cmp : K -> K -> option Z) rank (f : A -> K) x (l : list A) : ranked cmp rank ->
  exists m, min_by cmp f (x :: l) = Val (Some m) /\ least (fun y => rank (f y)) (x :: l) m.
Proof. intros Hr. apply (best_least cmp rank NoMethod f Hr l [x] x (least_one _ x)). Qed.

Lemma max_by_ok {A K} (cmp : K -> K -> option Z) rank (f : A -> K) x (l : list A) : ranked cmp rank ->
  exists m, max_by cmp f (x :: l) = Val (Some m) /\ greatest (fun y => rank (f y)) (x :: l) m.
Proof. intros Hr. apply (best_greatest cmp rank NoMethod f Hr l [x] x (greatest_one _ x)). Qed.

Lemma both_ok {A K} (cmp : K -> K -> option Z) rank e (key : A -> K) : ranked cmp rank ->
  forall l done mn mx, least (fun x => rank (key x)) done mn -> greatest (fun x => rank (key x)) done mx ->
  exists a b, both_go cmp e key mn mx l = Val (Some (a, b)) /\
    least (fun x => rank (key x)) (done ++ l) a /\ greatest (fun x => rank (key x)) (done ++ l) b.
Proof.
  intros Hr. induction l as [|x r IH]; intros done mn mx Hn Hx; cbn [both_go].
  - exists mn, mx. rewrite app_nil_r. split; [reflexivity|split; assumption].
  - destruct (Hr (key x) (key mn)) as (z & Ez & H1 & H2). rewrite Ez.
    destruct (Hr (key x) (key mx)) as (w & Ew & G1 & G2). rewrite Ew.
    rewrite <- snoc_eq. apply IH.
    + replace (z <? 0) with (rank (key x) <? rank (key mn)).
      * apply (least_step (fun x => rank (key x))). exact Hn.
      * destruct (Z.ltb_spec (rank (key x)) (rank (key mn))), (Z.ltb_spec z 0); tauto || lia.
    + replace (0 <? w) with (rank (key mx) <? rank (key x)).
      * apply (greatest_step (fun x => rank (key x))). exact Hx.
      * destruct (Z.ltb_spec (rank (key mx)) (rank (key x))), (Z.ltb_spec 0 w); tauto || lia.
Qed.

Lemma minmax_ok {A} (cmp : A -> A -> option Z) rank x (l : list A) : ranked cmp rank ->
  exists a b, minmax cmp (x :: l) = Val (Some (a, b)) /\ least rank (x :: l) a /\ greatest rank (x :: l) b.
Proof.
  intros Hr. apply (both_ok cmp rank ArgErr (fun x => x) Hr l [x] x x (least_one rank x) (greatest_one rank x)).
Qed.

Lemma minmax_by_ok {A K} (cmp : K -> K -> option Z) rank (f : A -> K) x (l : list A) : ranked cmp rank ->
  exists a b, minmax_by cmp f (x :: l) = Val (Some (a, b)) /\
    least (fun y => rank (f y)) (x :: l) a /\ greatest (fun y => rank (f y)) (x :: l) b.
Proof.
  intros Hr. apply (both_ok cmp rank NoMethod f Hr l [x] x x (least_one _ x) (greatest_one _ x)).
Qed.

(** Objects that cannot be compared: min and max raise ArgumentError. *)
Lemma min_incomparable {A} (cmp : A -> A -> option Z) x y (l : list A) : cmp y x = None ->
  min cmp (x :: y :: l) = Raise ArgErr /\ max cmp (x :: y :: l) = Raise ArgErr.
Proof. intros H. unfold min, max, best. cbn [best_go]. rewrite H. split; reflexivity. Qed.

(* ------------------------------------------------------------------ *)
(** ** zip, cycle, sum *)

Lemma to_arrays_ok {A} (os : list (source A)) : (forall f, ~ In (Endless f) os) ->
  exists arrays, to_arrays os = Val arrays /\
    forall i, map (fun oa => nth_error oa i) arrays = map (ith i) os.
Proof.
  induction os as [|[l|f] os IH]; intros H; cbn [to_arrays].
  - exists []. split; reflexivity.
  - destruct IH as (t & E & Ht); [intros f Hf; apply (H f); right; exact Hf|].
    rewrite E. exists (l :: t). split; [reflexivity|]. intros i. cbn. rewrite Ht. reflexivity.
  - exfalso. apply (H f). left. reflexivity.
Qed.

Lemma zip_go_ok {A} arrays : forall (l : list A) i,
  zip_go i l arrays =
    map (fun j => nth_error l j :: map (fun oa => nth_error oa (i + j)%nat) arrays) (seq 0 (length l)).
Proof.
  induction l as [|x r IH]; intros i; [reflexivity|]. cbn [zip_go length seq map].
  rewrite Nat.add_0_r. f_equal. rewrite IH. rewrite <- seq_shift, map_map. apply map_ext. intros j.
  cbn [nth_error]. replace (i + S j)%nat with (S i + j)%nat by lia. reflexivity.
Qed.

(** zip with finite enumerations gives the rows. *)
Lemma zip_ok {A} (l : list A) os : (forall f, ~ In (Endless f) os) -> zip l os = Val (rows l os).
Proof.
  intros H. destruct (to_arrays_ok os H) as (arrays & E & Ha). unfold zip. rewrite E.
  rewrite zip_go_ok. unfold rows. f_equal. apply map_ext. intros i. rewrite Nat.add_0_l, Ha. reflexivity.
Qed.

(** cycle(n) gives the elements n times over. *)
Lemma cycle_ok {A} n (l : list A) : cycle n l = concat (repeat l (Z.to_nat n)).
Proof.
  unfold cycle. destruct (Z.leb_spec n 0) as [H|H].
  - replace (Z.to_nat n) with 0%nat by lia. reflexivity.
  - assert (G : forall k, times k l = concat (repeat l k)).
    { induction k; cbn; [reflexivity|]. rewrite IHk. reflexivity. }
    rewrite G. replace (Z.to_nat n) with (S (Z.to_nat (n - 1))) by lia. cbn [repeat concat].
    destruct l as [|x r]; [|reflexivity]. induction (Z.to_nat (n - 1)); cbn in *; congruence.
Qed.

(** The sum of Integers is exact. *)
Lemma sum_integers init l : sum (NI init) (map NI l) = NI (fold_left Z.add l init).
Proof.
  unfold sum. generalize f_zero as c. revert init. induction l as [|x r IH]; intros init c; [reflexivity|].
  cbn [map fold_left]. apply (IH (init + x) c).
Qed.

(* ------------------------------------------------------------------ *)
(** ** Comparable *)

(** ==, unless <=> raises NoMethodError or ArgumentError. *)
Lemma eq_ok same c : (same = true \/ (c <> CRaise NoMethod /\ c <> CRaise ArgErr)) ->
  c_eq same c = ruby_eq same c.
Proof.
  unfold c_eq, ruby_eq. intros [->|(H1 & H2)]; [reflexivity|].
  destruct same; [reflexivity|]. destruct c as [| | |e]; try reflexivity.
  destruct e; congruence.
Qed.

(** != is the negation of == when <=> gives a number, which is 0 for the
    object itself. *)
Lemma ne_ok same z : (same = true -> z = 0) -> c_ne (CNum z) = ruby_ne same (CNum z).
Proof.
  intros H. unfold c_ne, ruby_ne, ruby_eq. cbn. destruct same; [|reflexivity].
  rewrite H by reflexivity. reflexivity.
Qed.

(** The orders exclude each other as they should. *)
Lemma ops_ok z :
  c_lt (CNum z) = Val (z <? 0) /\ c_gt (CNum z) = Val (0 <? z) /\
  c_ge (CNum z) = Val (negb (z <? 0)) /\ c_le (CNum z) = Val (negb (0 <? z)).
Proof.
  unfold c_lt, c_gt, c_ge, c_le. cbn. repeat split; f_equal.
  - rewrite Z.leb_antisym. reflexivity.
  - rewrite Z.leb_antisym. reflexivity.
Qed.

(** Without an order they raise ArgumentError. *)
Lemma ops_nil : c_lt CNil = Raise ArgErr /\ c_gt CNil = Raise ArgErr /\
  c_ge CNil = Raise ArgErr /\ c_le CNil = Raise ArgErr.
Proof. repeat split. Qed.

(** clamp gives a value between the bounds: the receiver if it is there, else
    the nearer bound. *)
Lemma clamp_ok {A} (cmp : A -> A -> option Z) rank (self : A) lo hi : ranked cmp rank ->
  (forall a b, lo = Some a -> hi = Some b -> rank a <= rank b) ->
  exists r, clamp cmp self lo hi false = Val r /\
    (forall a, lo = Some a -> rank a <= rank r) /\ (forall b, hi = Some b -> rank r <= rank b) /\
    ((forall a, lo = Some a -> rank a <= rank self) -> (forall b, hi = Some b -> rank self <= rank b) -> r = self) /\
    (r = self \/ Some r = lo \/ Some r = hi).
Proof.
  intros Hr Hb. unfold clamp.
  replace (match hi with Some _ => false | None => false end) with false by (destruct hi; reflexivity).
  assert (E : match lo, hi with
          | Some a, Some b => match cmp a b with None => true | Some c => 0 <? c end
          | _, _ => false
          end = false).
  { destruct lo as [a|], hi as [b|]; try reflexivity.
    destruct (Hr a b) as (z & -> & _ & H). specialize (Hb a b eq_refl eq_refl).
    apply Z.ltb_ge. destruct (Z.le_gt_cases z 0) as [G|G]; [exact G|]. apply H in G. lia. }
  rewrite E. clear E.
  destruct lo as [a|].
  - destruct (Hr self a) as (z & -> & H1 & H2). destruct (Z.ltb_spec z 0) as [G|G].
    + exists a. split; [reflexivity|]. apply H1 in G. split; [intros a' [= <-]; lia|].
      split; [intros b ->; apply (Hb a b eq_refl eq_refl)|]. split.
      * intros G1 _. specialize (G1 a eq_refl). lia.
      * right. left. reflexivity.
    + assert (Ga : rank a <= rank self) by (destruct (Z.le_gt_cases (rank a) (rank self)); [assumption|apply H1 in H; lia]).
      destruct hi as [b|].
      * destruct (Hr self b) as (w & -> & K1 & K2). destruct (Z.ltb_spec 0 w) as [J|J].
        -- apply K2 in J. exists b. split; [reflexivity|].
           split; [intros a' [= <-]; apply (Hb a b eq_refl eq_refl)|]. split; [intros b' [= <-]; lia|].
           split; [|right; right; reflexivity]. intros _ G2. specialize (G2 b eq_refl). lia.
        -- assert (Gb : rank self <= rank b) by (destruct (Z.le_gt_cases (rank self) (rank b)); [assumption|apply K2 in H; lia]).
           exists self. split; [reflexivity|]. split; [intros a' [= <-]; lia|].
           split; [intros b' [= <-]; lia|]. split; [reflexivity|left; reflexivity].
      * exists self. split; [reflexivity|]. split; [intros a' [= <-]; lia|].
        split; [discriminate|]. split; [reflexivity|left; reflexivity].
  - destruct hi as [b|].
    + destruct (Hr self b) as (w & -> & K1 & K2). destruct (Z.ltb_spec 0 w) as [J|J].
      * apply K2 in J. exists b. split; [reflexivity|]. split; [discriminate|]. split; [intros b' [= <-]; lia|].
        split; [|right; right; reflexivity]. intros _ G2. specialize (G2 b eq_refl). lia.
      * assert (Gb : rank self <= rank b) by (destruct (Z.le_gt_cases (rank self) (rank b)); [assumption|apply K2 in H; lia]).
        exists self. split; [reflexivity|]. split; [discriminate|].
        split; [intros b' [= <-]; lia|]. split; [reflexivity|left; reflexivity].
    + exists self. split; [reflexivity|]. split; [discriminate|].
      split; [discriminate|]. split; [reflexivity|left; reflexivity].
Qed.

(** Bounds in the wrong order raise. *)
Lemma clamp_bounds {A} (cmp : A -> A -> option Z) rank (self : A) a b e : ranked cmp rank ->
  rank b < rank a -> clamp cmp self (Some a) (Some b) e = Raise ArgErr.
Proof.
  intros Hr H. unfold clamp. destruct e; [reflexivity|].
  destruct (Hr a b) as (z & -> & _ & G). apply G in H. rewrite (proj2 (Z.ltb_lt 0 z)) by exact H. reflexivity.
Qed.

Lemma between_ok {A} (cmp : A -> A -> option Z) rank (self lo hi : A) : ranked cmp rank ->
  between cmp self lo hi = Val ((rank lo <=? rank self) && (rank self <=? rank hi)).
Proof.
  intros Hr. unfold between. destruct (Hr lo self) as (z & -> & H1 & H2).
  destruct (Hr self hi) as (w & -> & K1 & K2).
  assert (E : (z <=? 0) = (rank lo <=? rank self)).
  { destruct (Z.leb_spec z 0), (Z.leb_spec (rank lo) (rank self)); try reflexivity; exfalso.
    - apply H2 in H0. lia.
    - apply H2 in H. lia. }
  assert (F : (w <=? 0) = (rank self <=? rank hi)).
  { destruct (Z.leb_spec w 0), (Z.leb_spec (rank self) (rank hi)); try reflexivity; exfalso.
    - apply K2 in H0. lia.
    - apply K2 in H. lia. }
  rewrite E, F. destruct (rank lo <=? rank self); reflexivity.
Qed.

(** Sizes that are not positive are refused. *)
Lemma sizes_refused {A} n (l : list A) : n <= 0 ->
  each_slice n l = Raise ArgErr /\ each_cons n l = Raise ArgErr /\ (n < 0 -> take n l = Raise ArgErr).
Proof.
  intros H. unfold each_slice, each_cons, take. rewrite (proj2 (Z.leb_le n 0)) by exact H.
  repeat split. intros G. rewrite (proj2 (Z.ltb_lt n 0)) by exact G. reflexivity.
Qed.

(** Nothing comes of nothing. *)
Lemma empty_ok {A K} (p : A -> A -> bool) (cmp : K -> K -> option Z) (f : A -> K) (c : A -> A -> option Z) :
  chunk_while p [] = [] /\ slice_when p [] = [] /\
  min c [] = Val None /\ max c [] = Val None /\ min_by cmp f [] = Val None /\ max_by cmp f [] = Val None /\
  minmax c [] = Val None /\ minmax_by cmp f [] = Val None.
Proof. repeat split. Qed.

(** An exclusive range with an end is no bound. *)
Lemma clamp_exclusive {A} (cmp : A -> A -> option Z) self lo b : clamp cmp self lo (Some b) true = Raise ArgErr.
Proof. reflexivity. Qed.
