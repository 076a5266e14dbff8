(** Proofs about permutation, and about the sizes of the enumerators. *)
From Coq Require Import ZArith List Bool Lia Sorted.
From Verif Require Import CombModel CombSpec CombProofs.
Import ListNotations.
Local Open Scope nat_scope.

(* ------------------------------------------------------------------ *)
(** ** permutation *)

(** Each element of [B] with the others of [A ++ B]. *)
Fixpoint picks (A B : list nat) : list (nat * list nat) :=
  match B with
  | [] => []
  | a :: B' => (a, A ++ B') :: picks (A ++ [a]) B'
  end.

Fixpoint perms (d : nat) (R : list nat) : list (list nat) :=
  match d with
  | O => [[]]
  | S d' => flat_map (fun p => map (cons (fst p)) (perms d' (snd p))) (picks [] R)
  end.

Definition pst : Type := list nat * list nat.

(** indices[0] and indices[j] change places *)
Definition swap0 (l : list nat) (j : nat) : list nat := swap l 0 j.

Fixpoint perm_adv (cyc : list nat) (ind : list nat) : adv pst :=
  match cyc with
  | [] => Over (ind, [])
  | c :: cs =>
      match ind with
      | [] => Over (ind, cyc)
      | x :: s =>
          match perm_adv cs s with
          | Next (s', cs') => Next (x :: s', c :: cs')
          | Over (s', cs') =>
              if c - 1 =? 0 then Over (s' ++ [x], S (length s') :: cs')
              else Next (swap0 (x :: s') (S (length s') - (c - 1)), c - 1 :: cs')
          end
      end
  end.

Definition padv (st : pst) : adv pst := perm_adv (snd st) (fst st).
Definition pout (st : pst) : list nat := firstn (length (snd st)) (fst st).
Definition fresh (L d : nat) : list nat := map (fun i => L - i) (seq 0 d).

Lemma fresh_S L d : fresh (S L) (S d) = S L :: fresh L d.
Proof.
  unfold fresh. cbn [seq map]. rewrite Nat.sub_0_r. f_equal.
  rewrite <- seq_shift, map_map. apply map_ext. intros a. lia.
Qed.

Lemma fresh_length L d : length (fresh L d) = d.
Proof. unfold fresh. rewrite map_length, seq_length. reflexivity. Qed.

Definition pemb (x c : nat) (st : pst) : pst := (x :: fst st, c :: snd st).

Lemma padv_next x c st st' : padv st = Next st' -> padv (pemb x c st) = Next (pemb x c st').
Proof.
  unfold padv, pemb. cbn [fst snd perm_adv]. intros ->. destruct st'. reflexivity.
Qed.

Lemma padv_over x c st st' : padv st = Over st' ->
  padv (pemb x c st) =
    if c - 1 =? 0 then Over (fst st' ++ [x], S (length (fst st')) :: snd st')
    else Next (swap0 (x :: fst st') (S (length (fst st')) - (c - 1)), c - 1 :: snd st').
Proof.
  unfold padv, pemb. cbn [fst snd perm_adv]. intros ->. destruct st'. reflexivity.
Qed.

Lemma swap0_ok a A b B : swap0 (a :: A ++ b :: B) (S (length A)) = b :: A ++ a :: B.
Proof.
  unfold swap0, swap. change (at_ (a :: A ++ b :: B) 0) with a.
  change (at_ (a :: A ++ b :: B) (S (length A))) with (at_ (A ++ b :: B) (length A)).
  rewrite at_mid. cbn [set_nth]. rewrite set_nth_mid. reflexivity.
Qed.

Lemma perm_path d : forall R, d <= length R ->
  path padv pout (R, fresh (length R) d) (perms d R) (R, fresh (length R) d).
Proof.
  induction d as [|d IH]; intros R Hd.
  - cbn [perms]. apply (path_over padv pout (R, []) (R, [])). reflexivity.
  - cbn [perms].
    assert (G : forall B A, A ++ B = R -> B <> [] ->
      path padv pout
        (hd 0 B :: A ++ tl B, length B :: fresh (length R - 1) d)
        (flat_map (fun p => map (cons (fst p)) (perms d (snd p))) (picks A B))
        (R, fresh (length R) (S d))).
    { induction B as [|a B IHB]; intros A HR HB; [congruence|].
      assert (HL : length R = S (length (A ++ B))).
      { rewrite <- HR, !app_length. cbn. lia. }
      cbn [hd tl picks flat_map fst snd].
      replace (length R - 1) with (length (A ++ B)) by lia.
      pose proof (IH (A ++ B) ltac:(lia)) as P1.
      change (a :: A ++ B, length (a :: B) :: fresh (length (A ++ B)) d)
        with (pemb a (length (a :: B)) (A ++ B, fresh (length (A ++ B)) d)).
      destruct B as [|b B].
      - cbn [picks flat_map]. rewrite (app_nil_r (map _ _)).
        apply (lift_over padv pout padv pout (pemb a (length [a])))
          with (st' := (A ++ [], fresh (length (A ++ [])) d)).
        + intros [s cs]. reflexivity.
        + intros st st'. apply padv_next.
        + exact P1.
        + intros st0 Hs. rewrite (padv_over _ _ _ _ Hs). cbn [length fst snd].
          cbn [Nat.sub Nat.eqb]. rewrite app_nil_r in *. rewrite HR, HL, fresh_S. reflexivity.
      - apply (lift_next padv pout padv pout (pemb a (length (a :: b :: B))))
          with (st' := (A ++ b :: B, fresh (length (A ++ b :: B)) d))
               (st1 := (b :: (A ++ [a]) ++ B, length (b :: B) :: fresh (length R - 1) d)).
        + intros [s cs]. reflexivity.
        + intros st st'. apply padv_next.
        + exact P1.
        + intros st0 Hs. rewrite (padv_over _ _ _ _ Hs). cbn [length fst snd].
          replace (S (S (length B)) - 1) with (S (length B)) by lia. cbn [Nat.eqb].
          replace (S (length (A ++ b :: B)) - S (length B)) with (S (length A))
            by (rewrite app_length; cbn; lia).
          rewrite swap0_ok, snoc_eq. replace (length R - 1) with (length (A ++ b :: B)) by lia.
          reflexivity.
        + apply (IHB (A ++ [a])); [rewrite snoc_eq; exact HR|discriminate]. }
    destruct R as [|a R]; [cbn in Hd; lia|].
    specialize (G (a :: R) [] eq_refl ltac:(discriminate)).
    cbn [hd tl app length] in G. replace (S (length R) - 1) with (length R) in G by lia.
    cbn [length]. rewrite fresh_S in *. exact G.
Qed.

(** The scan over the whole arrays is the machine. *)
Lemma move_last_mid p x s : move_last (p ++ x :: s) (length p) = p ++ s ++ [x].
Proof.
  unfold move_last. rewrite at_mid.
  rewrite firstn_app, Nat.sub_diag, firstn_all. cbn [firstn]. rewrite app_nil_r.
  replace (p ++ x :: s) with ((p ++ [x]) ++ s) by apply snoc_eq.
  rewrite skipn_app, snoc_len, Nat.sub_diag.
  rewrite skipn_all2 by (rewrite snoc_len; lia). reflexivity.
Qed.

Lemma swap_mid p x s j : j <= length s ->
  swap (p ++ x :: s) (length p) (length p + j) = p ++ swap0 (x :: s) j.
Proof.
  intros Hj. unfold swap0, swap. rewrite at_mid.
  assert (Ha : forall l k, at_ (p ++ l) (length p + k) = at_ l k).
  { intros l k. unfold at_. rewrite app_nth2 by lia. f_equal. lia. }
  assert (Hs : forall l k v, set_nth (p ++ l) (length p + k) v = p ++ set_nth l k v).
  { clear. induction p as [|y p IH]; intros; cbn; [reflexivity|]. rewrite IH. reflexivity. }
  rewrite Ha. rewrite set_nth_mid.
  change (p ++ at_ (x :: s) j :: s) with (p ++ set_nth (x :: s) 0 (at_ (x :: s) j)).
  rewrite Hs. reflexivity.
Qed.

(** cycles stay between 1 and the number of elements left *)
Definition pinv (st : pst) : Prop :=
  length (snd st) <= length (fst st) /\
  forall i, i < length (snd st) -> 1 <= at_ (snd st) i <= length (fst st) - i.

Lemma pinv_tail x s c cs : pinv (x :: s, c :: cs) -> pinv (s, cs) /\ 1 <= c <= S (length s).
Proof.
  intros (H1 & H2). cbn [fst snd length] in *. split.
  - split; cbn [fst snd]; [lia|]. intros i Hi. specialize (H2 (S i) ltac:(lia)).
    unfold at_ in *. cbn [nth] in H2. lia.
  - specialize (H2 0 ltac:(lia)). unfold at_ in H2. cbn [nth] in H2. lia.
Qed.

Lemma pinv_cons x s c cs : pinv (s, cs) -> 1 <= c <= S (length s) -> pinv (x :: s, c :: cs).
Proof.
  intros (H1 & H2) Hc. cbn [fst snd length] in *. split; cbn [fst snd length]; [lia|].
  intros [|i] Hi; unfold at_; cbn [nth]; [lia|].
  specialize (H2 i ltac:(lia)). unfold at_ in H2. lia.
Qed.

Lemma swap_length l i j : length (swap l i j) = length l.
Proof. unfold swap. rewrite !set_nth_length. reflexivity. Qed.

Lemma perm_inv cs : forall s st', pinv (s, cs) ->
  (perm_adv cs s = Next st' \/ perm_adv cs s = Over st') ->
  pinv st' /\ length (fst st') = length s /\ length (snd st') = length cs.
Proof.
  induction cs as [|c cs IH]; intros s st' Hi H; cbn [perm_adv] in H.
  - destruct H as [H|H]; [discriminate|]. injection H as <-. auto.
  - destruct s as [|x s]; [destruct Hi as (H1 & _); cbn in H1; lia|].
    destruct (pinv_tail _ _ _ _ Hi) as (Ht & Hc).
    destruct (perm_adv cs s) as [[s' cs']|[s' cs']] eqn:E.
    + destruct H as [H|H]; [|discriminate]. injection H as <-.
      destruct (IH s (s', cs') Ht (or_introl E)) as (G1 & G2 & G3). cbn [fst snd] in *.
      split; [|cbn; lia]. apply pinv_cons; [exact G1|lia].
    + destruct (IH s (s', cs') Ht (or_intror E)) as (G1 & G2 & G3). cbn [fst snd] in *.
      destruct (c - 1 =? 0) eqn:Ec.
      * destruct H as [H|H]; [discriminate|]. injection H as <-. cbn [fst snd].
        rewrite snoc_len. split; [|cbn; lia]. destruct G1 as (K1 & K2). cbn [fst snd] in *.
        split; cbn [fst snd length]; rewrite snoc_len; [lia|].
        intros [|i] Hi2; unfold at_; cbn [nth]; [lia|].
        specialize (K2 i ltac:(lia)). unfold at_ in K2. lia.
      * assert (Hl : length (swap0 (x :: s') (S (length s') - (c - 1))) = S (length s')).
        { unfold swap0. rewrite swap_length. reflexivity. }
        revert H Hl. generalize (swap0 (x :: s') (S (length s') - (c - 1))) as sw. intros sw H Hl.
        destruct H as [H|H]; [|discriminate]. injection H as <-. cbn [fst snd].
        split; [|rewrite Hl; cbn [length]; lia]. destruct G1 as (K1 & K2). cbn [fst snd] in *.
        apply Nat.eqb_neq in Ec.
        split; cbn [fst snd length]; rewrite Hl; [lia|].
        intros [|i] Hi2; unfold at_; cbn [nth]; [lia|].
        specialize (K2 i ltac:(lia)). unfold at_ in K2. lia.
Qed.

Lemma perm_scan_ok m : forall cs s p pc, pinv (s, cs) -> length p = length pc ->
  length p + length s = m ->
  perm_scan m (p ++ s) (pc ++ cs) (length pc + length cs) =
    match perm_adv cs s with
    | Next (s', cs') => Some (p ++ s', pc ++ cs')
    | Over (s', cs') => perm_scan m (p ++ s') (pc ++ cs') (length pc)
    end.
Proof.
  induction cs as [|c cs IH]; intros s p pc Hi Hp Hm.
  - cbn [perm_adv length]. rewrite Nat.add_0_r. reflexivity.
  - destruct s as [|x s]; [destruct Hi as (H1 & _); cbn in H1; lia|].
    destruct (pinv_tail _ _ _ _ Hi) as (Ht & Hc).
    specialize (IH s (p ++ [x]) (pc ++ [c]) Ht).
    rewrite !snoc_len, !snoc_eq in IH. cbn [length] in *.
    replace (length pc + S (length cs)) with (S (length pc) + length cs) by lia.
    rewrite IH by lia. clear IH. cbn [perm_adv].
    destruct (perm_adv cs s) as [[s' cs']|[s' cs']] eqn:E.
    + rewrite !snoc_eq. reflexivity.
    + destruct (perm_inv cs s (s', cs') Ht (or_intror E)) as (G1 & G2 & G3).
      cbn [fst snd] in *. rewrite !snoc_eq. cbn [perm_scan].
      rewrite at_mid. destruct (c - 1 =? 0) eqn:Ec.
      * rewrite <- Hp at 1. rewrite move_last_mid, set_nth_mid.
        replace (m - length pc) with (S (length s')) by lia. reflexivity.
      * rewrite set_nth_mid. apply Nat.eqb_neq in Ec. f_equal. f_equal.
        rewrite <- Hp. rewrite <- swap_mid by lia. f_equal.
        rewrite app_length. cbn [length]. lia.
Qed.

Lemma perm_step_ok m st n : pinv st -> length (fst st) = m -> length (snd st) = n ->
  perm_step m n st = forget (padv st).
Proof.
  intros Hi Hm Hn. destruct st as [s cs]. cbn [fst snd] in *.
  pose proof (perm_scan_ok m cs s [] [] Hi eq_refl) as G. cbn [length app] in G.
  rewrite !Nat.add_0_l in G. specialize (G Hm). rewrite Hn in G.
  unfold perm_step, padv. cbn [fst snd]. rewrite G.
  destruct (perm_adv cs s) as [[s' cs']|[s' cs']]; reflexivity.
Qed.

Lemma fresh_inv R d : d <= length R -> pinv (R, fresh (length R) d).
Proof.
  intros H. split; cbn [fst snd]; rewrite fresh_length; [exact H|].
  intros i Hi. unfold at_, fresh.
  rewrite (nth_indep _ 0 (length R - 0)) by (rewrite map_length, seq_length; lia).
  rewrite (map_nth (fun i => length R - i)), seq_nth by lia. lia.
Qed.

(** ** The rows *)

Lemma picks_in x r : forall B A, In (x, r) (picks A B) <->
  exists B1 B2, B = B1 ++ x :: B2 /\ r = A ++ B1 ++ B2.
Proof.
  induction B as [|a B IH]; intros A; cbn [picks].
  - split; [intros []|]. intros ([|? ?] & B2 & H & _); discriminate.
  - cbn [In]. rewrite IH. split.
    + intros [H|(B1 & B2 & H1 & H2)].
      * injection H as <- <-. exists [], B. split; reflexivity.
      * exists (a :: B1), B2. subst. split; [reflexivity|]. rewrite <- app_assoc. reflexivity.
    + intros ([|b B1] & B2 & H1 & H2); cbn in H1; injection H1 as -> ->.
      * left. subst. reflexivity.
      * right. exists B1, B2. split; [reflexivity|]. rewrite snoc_eq. exact H2.
Qed.

Lemma perms_in d : forall R r, NoDup R ->
  (In r (perms d R) <-> length r = d /\ NoDup r /\ incl r R).
Proof.
  induction d as [|d IH]; intros R r HR; cbn [perms].
  - split.
    + intros [<-|[]]. repeat split; [constructor|]. intros a [].
    + intros (H & _). left. destruct r; [reflexivity|discriminate].
  - rewrite in_flat_map. split.
    + intros ([x R'] & Hp & Hr). cbn [fst snd] in Hr. apply in_map_iff in Hr.
      destruct Hr as (t & <- & Ht). apply picks_in in Hp.
      destruct Hp as (B1 & B2 & -> & ->). cbn [app] in *.
      assert (HN := NoDup_remove _ _ _ HR). destruct HN as (HN & Hx).
      apply IH in Ht; [|exact HN]. destruct Ht as (Hl & Hnd & Hi).
      split; [cbn; lia|]. split.
      * constructor; [|exact Hnd]. intros Hin. apply Hx. apply Hi. exact Hin.
      * intros y [<-|Hy]; [apply in_or_app; right; left; reflexivity|].
        specialize (Hi y Hy). apply in_app_or in Hi. apply in_or_app. cbn. tauto.
    + intros (Hl & Hnd & Hi). destruct r as [|x t]; [discriminate|].
      inversion Hnd as [|? ? Hx Hnt]; subst.
      destruct (in_split x R (Hi x (or_introl eq_refl))) as (B1 & B2 & ->).
      exists (x, B1 ++ B2). split; [apply picks_in; exists B1, B2; split; reflexivity|].
      cbn [fst snd]. apply in_map. apply IH; [apply (NoDup_remove _ _ _ HR)|].
      split; [cbn in Hl; lia|]. split; [exact Hnt|].
      intros y Hy. specialize (Hi y (or_intror Hy)). apply in_app_or in Hi. apply in_or_app.
      destruct Hi as [Hi|[<-|Hi]]; [left; exact Hi|contradiction|right; exact Hi].
Qed.

Lemma picks_sorted : forall B A, StronglySorted lt B ->
  StronglySorted (fun a b : nat * list nat => fst a < fst b) (picks A B).
Proof.
  induction B as [|a B IH]; intros A H; cbn [picks]; [constructor|].
  inversion H as [|? ? HB Ha]; subst. constructor; [apply IH; exact HB|].
  apply Forall_forall. intros [x r] Hp. apply picks_in in Hp.
  destruct Hp as (B1 & B2 & -> & _). cbn [fst].
  rewrite Forall_forall in Ha. apply Ha. apply in_or_app. right. left. reflexivity.
Qed.

Lemma sorted_remove B1 x B2 : StronglySorted lt (B1 ++ x :: B2) -> StronglySorted lt (B1 ++ B2).
Proof.
  induction B1 as [|b B1 IH]; cbn; intros H; inversion H as [|? ? H1 H2]; subst.
  - exact H1.
  - constructor; [apply IH; exact H1|]. rewrite Forall_app in *. destruct H2 as (Ha & Hb).
    split; [exact Ha|]. inversion Hb; assumption.
Qed.

Lemma perms_sorted d : forall R, StronglySorted lt R -> StronglySorted lex (perms d R).
Proof.
  induction d as [|d IH]; intros R HR; cbn [perms]; [repeat constructor|].
  apply (ss_flat (fun p : nat * list nat => fst p) (fun p => perms d (snd p))).
  - apply picks_sorted. exact HR.
  - intros [x r] Hp. apply picks_in in Hp. destruct Hp as (B1 & B2 & -> & ->). cbn [snd app].
    apply IH. eapply sorted_remove. exact HR.
Qed.

(** permutation(n) yields the rows of n different positions, each once and in
    lexicographic order; without argument n is the size. *)
Lemma permutation_ok len n :
  yields (fun fuel => permutation fuel len n)
    (fun r => row len (match n with Some n => n | None => Z.of_nat len end) r /\ NoDup r).
Proof.
  unfold permutation. set (m := match n with Some n => n | None => Z.of_nat len end).
  clearbody m. clear n. destruct (Z.eqb_spec m 0) as [->|H0].
  { apply (yields_const _ _ [[]]); [reflexivity|]. apply enum_nil. intros r. unfold row. split.
    - intros ((H & _) & _). destruct r; [reflexivity|]. cbn in H. lia.
    - intros ->. repeat split; constructor. }
  destruct ((m <? 0) || (Z.of_nat len <? m))%Z eqn:E.
  - apply (yields_const _ _ []); [reflexivity|]. apply enum_none. intros r ((Hl & Hf) & Hd).
    assert (length r <= len).
    { rewrite <- (seq_length len 0). apply NoDup_incl_length; [exact Hd|].
      intros x Hx. apply in_seq. rewrite Forall_forall in Hf. specialize (Hf x Hx). lia. }
    apply orb_prop in E. destruct E as [E|E]; apply Z.ltb_lt in E; lia.
  - apply orb_false_elim in E. destruct E as (Ea & Eb).
    apply Z.ltb_ge in Ea. apply Z.ltb_ge in Eb.
    set (k := Z.to_nat m). assert (Hk : Z.of_nat k = m) by (unfold k; lia).
    pose proof (perm_path k (seq 0 len)) as P. rewrite seq_length in P.
    specialize (P ltac:(lia)).
    exists (perms k (seq 0 len)). split.
    + split; [apply perms_sorted; apply ss_seq|]. intros r.
      rewrite perms_in by apply seq_NoDup. unfold row. split.
      * intros (Hl & Hd & Hi). repeat split; [lia| |exact Hd].
        apply Forall_forall. intros x Hx. specialize (Hi x Hx). apply in_seq in Hi. lia.
      * intros ((Hl & Hf) & Hd). repeat split; [lia|exact Hd|].
        intros x Hx. apply in_seq. rewrite Forall_forall in Hf. specialize (Hf x Hx). lia.
    + exists (length (perms k (seq 0 len))). intros f' Hf'.
      pose (I := fun st : pst => pinv st /\ length (fst st) = len /\ length (snd st) = k).
      assert (Hrun : run (perm_step len k) pout f' (seq 0 len, fresh len k) = Some (perms k (seq 0 len))).
      { apply (run_path padv (perm_step len k) pout I) with (st' := (seq 0 len, fresh len k)).
        - intros st (I1 & I2 & I3). apply perm_step_ok; assumption.
        - intros st st' (I1 & I2 & I3) Hn.
          destruct st as [s cs].
          destruct (perm_inv cs s st' I1 (or_introl Hn)) as (G1 & G2 & G3).
          unfold I. cbn [fst snd] in *. repeat split; try apply G1; lia.
        - exact P.
        - split; [|split; cbn [fst snd]; [apply seq_length|apply fresh_length]].
          pose proof (fresh_inv (seq 0 len) k) as G. rewrite seq_length in G. apply G. lia.
        - exact Hf'. }
      rewrite <- Hrun. unfold cycles0. fold (fresh len k).
      assert (Hout : forall f st, I st -> run (perm_step len k) (shown k) f st = run (perm_step len k) pout f st).
      { induction f as [|f IHf]; intros st HI; [reflexivity|]. cbn [run].
        assert (Ho : shown k st = pout st).
        { unfold shown, pout. destruct HI as (_ & _ & ->). reflexivity. }
        rewrite Ho. destruct HI as (I1 & I2 & I3).
        rewrite (perm_step_ok len st k I1 I2 I3). destruct (padv st) as [st'|st'] eqn:Ep; [|reflexivity].
        cbn [forget]. rewrite IHf; [reflexivity|].
        destruct st as [s cs]. destruct (perm_inv cs s st' I1 (or_introl Ep)) as (G1 & G2 & G3).
        unfold I. cbn [fst snd] in *. repeat split; try apply G1; lia. }
      apply Hout. split; [|split; cbn [fst snd]; [apply seq_length|apply fresh_length]].
      pose proof (fresh_inv (seq 0 len) k) as G. rewrite seq_length in G. apply G. lia.
Qed.

(* ------------------------------------------------------------------ *)
(** ** Sizes *)

(** Two enumerations of the same rows have the same length. *)
Lemma lex_irrefl r : ~ lex r r.
Proof. induction r; cbn; [tauto|]. intros [H|(_ & H)]; [lia|auto]. Qed.

Lemma enum_nodup P rows : enumerates P rows -> NoDup rows.
Proof.
  intros (H & _). induction H as [|r rows H IH Hr]; constructor; [|exact IH].
  intros Hin. rewrite Forall_forall in Hr. exact (lex_irrefl r (Hr r Hin)).
Qed.

Lemma enum_length P a b : enumerates P a -> enumerates P b -> length a = length b.
Proof.
  intros Ha Hb. pose proof (enum_nodup _ _ Ha). pose proof (enum_nodup _ _ Hb).
  destruct Ha as (_ & Ha), Hb as (_ & Hb).
  apply Nat.le_antisymm; apply NoDup_incl_length; try assumption; intros r Hr.
  - apply Hb, Ha, Hr.
  - apply Ha, Hb, Hr.
Qed.

Lemma binom_0 n : binom n 0 = 1.
Proof. destruct n; reflexivity. Qed.

Lemma binom_big n : forall k, n < k -> binom n k = 0.
Proof.
  induction n; intros [|k] H; try lia; cbn [binom]; [reflexivity|].
  rewrite !IHn by lia. reflexivity.
Qed.

Lemma binom_diag n : binom n n = 1.
Proof. induction n; cbn [binom]; [reflexivity|]. rewrite IHn, binom_big by lia. reflexivity. Qed.

Lemma binom_sym n : forall k, k <= n -> binom n k = binom n (n - k).
Proof.
  induction n as [|n IH]; intros k Hk; [replace k with 0 by lia; reflexivity|].
  destruct k as [|k]; [rewrite Nat.sub_0_r, binom_diag; reflexivity|].
  destruct (Nat.eq_dec k n) as [->|Hn]; [rewrite Nat.sub_diag, binom_diag; reflexivity|].
  replace (S n - S k) with (S (n - S k)) by lia. cbn [binom].
  rewrite (IH k) by lia. rewrite (IH (S k)) by lia.
  replace (S (n - S k)) with (n - k) by lia. lia.
Qed.

Lemma binom_absorb n : forall k, S k * binom (S n) (S k) = S n * binom n k.
Proof.
  induction n as [|n IH]; intros k.
  - cbn [binom]. destruct k; cbn; lia.
  - destruct k as [|k].
    + specialize (IH 0). rewrite binom_0 in IH.
      change (binom (S (S n)) 1) with (binom (S n) 0 + binom (S n) 1). rewrite !binom_0. lia.
    + pose proof (IH k) as H1. pose proof (IH (S k)) as H2.
      change (binom (S (S n)) (S (S k))) with (binom (S n) (S k) + binom (S n) (S (S k))).
      change (binom (S n) (S k)) with (binom n k + binom n (S k)) in *.
      nia.
Qed.

(** C(n, k+1) (k+1) = C(n, k) (n-k) *)
Lemma binom_next n k : k <= n -> S k * binom n (S k) = (n - k) * binom n k.
Proof.
  intros Hk. pose proof (binom_absorb n k) as H. cbn [binom] in H.
  assert (binom (S n) (S k) = binom n k + binom n (S k)) by reflexivity.
  nia.
Qed.

Lemma flat_map_length {A B} (f : A -> list B) l :
  length (flat_map f l) = list_sum (map (fun x => length (f x)) l).
Proof. induction l; cbn; [reflexivity|]. rewrite app_length, IHl. reflexivity. Qed.

Lemma combs_count len k : forall lo, length (combs len k lo) = binom (len - lo) k.
Proof.
  induction k as [|k IHk]; intros lo; [cbn; now rewrite binom_0|].
  remember (len - lo) as m eqn:Em. revert lo Em. induction m as [|m IHm]; intros lo Em.
  - cbn [combs binom]. replace (len - k - lo) with 0 by lia. reflexivity.
  - cbn [combs]. destruct (len - k - lo) as [|c] eqn:Ec.
    + cbn [seq flat_map length]. rewrite binom_big by lia. reflexivity.
    + rewrite flat_map_seq_S, app_length, map_length, IHk.
      specialize (IHm (S lo) ltac:(lia)). cbn [combs] in IHm.
      replace (len - k - S lo) with c in IHm by lia. rewrite IHm.
      replace (len - S lo) with m by lia. reflexivity.
Qed.

Lemma mcombs_count len k : forall lo, lo < len ->
  length (mcombs len k lo) = binom (len - lo + k - 1) k.
Proof.
  induction k as [|k IHk]; intros lo Hlo; [cbn; now rewrite binom_0|].
  remember (len - lo - 1) as m eqn:Em. revert lo Hlo Em. induction m as [|m IHm]; intros lo Hlo Em.
  - cbn [mcombs]. replace (len - lo) with 1 by lia. cbn [seq flat_map].
    rewrite app_nil_r, map_length, IHk by lia.
    replace (len - lo + k - 1) with k by lia. replace (1 + S k - 1) with (S k) by lia.
    rewrite !binom_diag. reflexivity.
  - cbn [mcombs]. replace (len - lo) with (S (S m)) by lia.
    rewrite flat_map_seq_S, app_length, map_length, IHk by lia.
    specialize (IHm (S lo) ltac:(lia) ltac:(lia)). cbn [mcombs] in IHm.
    replace (len - S lo) with (S m) in IHm by lia. rewrite IHm.
    replace (len - lo + k - 1) with (S m + k) by lia.
    replace (S m + S k - 1) with (S m + k) by lia.
    replace (S (S m) + S k - 1) with (S (S m + k)) by lia. reflexivity.
Qed.

Lemma words_count len k : length (words len k) = len ^ k.
Proof.
  induction k as [|k IH]; [reflexivity|]. cbn [words Nat.pow].
  rewrite flat_map_length, (map_ext _ (fun _ => len ^ k)).
  - assert (G : forall l : list nat, list_sum (map (fun _ => len ^ k) l) = length l * len ^ k)
      by (generalize (len ^ k); intros v; unfold list_sum; induction l as [|y l IHl]; [reflexivity|];
          cbn [map fold_right length Nat.mul]; rewrite IHl; reflexivity).
    rewrite G, seq_length. reflexivity.
  - intros x. rewrite map_length. exact IH.
Qed.

Lemma picks_length B : forall A, length (picks A B) = length B.
Proof. induction B; intros A; cbn; [reflexivity|]. rewrite IHB. reflexivity. Qed.

Fixpoint fall (m d : nat) : nat := match d with O => 1 | S d' => m * fall (m - 1) d' end.

Lemma perms_count d : forall R, d <= length R -> length (perms d R) = fall (length R) d.
Proof.
  induction d as [|d IH]; intros R Hd; [reflexivity|]. cbn [perms fall].
  rewrite flat_map_length.
  assert (H : forall l : list (nat * list nat), (forall p, In p l -> length (snd p) = length R - 1) ->
    list_sum (map (fun p => length (map (cons (fst p)) (perms d (snd p)))) l) = length l * fall (length R - 1) d).
  { induction l as [|p l IHl]; intros H; [reflexivity|]. cbn [map list_sum fold_right length].
    rewrite map_length, IH, (H p (or_introl eq_refl)).
    - change (fold_right Nat.add 0 (map (fun p0 => length (map (cons (fst p0)) (perms d (snd p0)))) l))
        with (list_sum (map (fun p0 => length (map (cons (fst p0)) (perms d (snd p0)))) l)).
      rewrite IHl; [lia|]. intros q Hq. apply H. right. exact Hq.
    - rewrite (H p (or_introl eq_refl)). lia. }
  rewrite H, picks_length; [reflexivity|].
  intros [x r] Hp. apply picks_in in Hp. destruct Hp as (B1 & B2 & -> & ->).
  cbn [snd app]. rewrite !app_length. cbn. lia.
Qed.

(** The multiplicative form. *)
Lemma mul_div_ok (f : Z -> Z) (g : nat -> nat) k :
  g 0 = 1 ->
  (forall j, j < k -> Z.of_nat (S j * g (S j)) = (Z.of_nat (g j) * f (Z.of_nat (S j)))%Z) ->
  forall j, j <= k -> mul_div f j = Z.of_nat (g j).
Proof.
  intros H0 Hs. induction j as [|j IH]; intros Hj; cbn [mul_div]; [rewrite H0; reflexivity|].
  rewrite IH by lia. rewrite <- Hs by lia.
  rewrite Nat2Z.inj_mul, Z.mul_comm. apply Z.div_mul. lia.
Qed.

Lemma combs_enum len k : enumerates (fun r => row len (Z.of_nat k) r /\ increasing r) (combs len k 0).
Proof.
  split; [apply combs_sorted|]. intros r. rewrite combs_in. unfold row. split.
  - intros (Hl & Hi & Hf). repeat split; [lia| |exact Hi].
    eapply Forall_impl; [|exact Hf]. intros a Ha. cbn in Ha. lia.
  - intros ((Hl & Hf) & Hi). repeat split; [lia|exact Hi|].
    eapply Forall_impl; [|exact Hf]. intros a Ha. cbn in Ha. lia.
Qed.

Lemma mcombs_enum len k : enumerates (fun r => row len (Z.of_nat k) r /\ nondecreasing r) (mcombs len k 0).
Proof.
  split; [apply mcombs_sorted|]. intros r. rewrite mcombs_in. unfold row. split.
  - intros (Hl & Hi & Hf). repeat split; [lia| |exact Hi].
    eapply Forall_impl; [|exact Hf]. intros a Ha. cbn in Ha. lia.
  - intros ((Hl & Hf) & Hi). repeat split; [lia|exact Hi|].
    eapply Forall_impl; [|exact Hf]. intros a Ha. cbn in Ha. lia.
Qed.

Lemma words_enum len k : enumerates (row len (Z.of_nat k)) (words len k).
Proof.
  split; [apply words_sorted|]. intros r. rewrite words_in. unfold row. intuition lia.
Qed.

Lemma perms_enum len k : enumerates (fun r => row len (Z.of_nat k) r /\ NoDup r) (perms k (seq 0 len)).
Proof.
  split; [apply perms_sorted; apply ss_seq|]. intros r.
  rewrite perms_in by apply seq_NoDup. unfold row. split.
  - intros (Hl & Hd & Hi). repeat split; [lia| |exact Hd].
    apply Forall_forall. intros x Hx. specialize (Hi x Hx). apply in_seq in Hi. lia.
  - intros ((Hl & Hf) & Hd). repeat split; [lia|exact Hd|].
    intros x Hx. apply in_seq. rewrite Forall_forall in Hf. specialize (Hf x Hx). lia.
Qed.

Lemma size_neg (P : list nat -> Prop) n : (n < 0)%Z -> (forall r, P r -> Z.of_nat (length r) = n) -> size_of P 0.
Proof.
  intros Hn H. exists []. split; [|reflexivity]. apply enum_none.
  intros r Hr. specialize (H r Hr). lia.
Qed.

(** The sizes of the enumerators are the numbers of rows. *)
Lemma combination_size_ok len n :
  size_of (fun r => row len n r /\ increasing r) (combination_size len n).
Proof.
  unfold combination_size. destruct (Z.ltb_spec n 0) as [H|H]; cbn [orb].
  { apply (size_neg _ n); [exact H|]. intros r ((Hr & _) & _). exact Hr. }
  remember (Z.to_nat n) as k eqn:Ek. replace n with (Z.of_nat k) by lia. clear Ek H n.
  exists (combs len k 0). split; [apply combs_enum|]. rewrite combs_count, Nat.sub_0_r.
  destruct (Z.ltb_spec (Z.of_nat len) (Z.of_nat k)) as [H|H].
  { rewrite binom_big by lia. reflexivity. }
  destruct (Z.eqb_spec (Z.of_nat k) 0) as [H0|H0].
  { replace k with 0 by lia. rewrite binom_0. reflexivity. }
  set (j := if (Z.of_nat len - Z.of_nat k <? Z.of_nat k)%Z then len - k else k).
  replace (if (Z.of_nat len - Z.of_nat k <? Z.of_nat k)%Z then (Z.of_nat len - Z.of_nat k)%Z else Z.of_nat k)
    with (Z.of_nat j) by (unfold j; destruct (_ <? _)%Z; lia).
  assert (Hj : j <= len) by (unfold j; destruct (_ <? _)%Z; lia).
  replace (binom len k) with (binom len j).
  2:{ unfold j. destruct (_ <? _)%Z; [|reflexivity]. rewrite (binom_sym len k) by lia. reflexivity. }
  rewrite Nat2Z.id.
  rewrite (mul_div_ok _ (fun i => binom (len - j + i) i) j).
  - replace (len - j + j) with len by lia. reflexivity.
  - apply binom_0.
  - intros i Hi. pose proof (binom_absorb (len - j + i) i) as G.
    replace (len - j + S i) with (S (len - j + i)) by lia. rewrite G.
    rewrite Nat2Z.inj_mul, Z.mul_comm. f_equal. lia.
  - lia.
Qed.

Lemma repeated_combination_size_ok len n :
  size_of (fun r => row len n r /\ nondecreasing r) (repeated_combination_size len n).
Proof.
  unfold repeated_combination_size. destruct (Z.ltb_spec n 0) as [H|H].
  { apply (size_neg _ n); [exact H|]. intros r ((Hr & _) & _). exact Hr. }
  remember (Z.to_nat n) as k eqn:Ek. replace n with (Z.of_nat k) by lia. clear Ek H n.
  exists (mcombs len k 0). split; [apply mcombs_enum|].
  destruct (Z.eqb_spec (Z.of_nat k) 0) as [H0|H0].
  { replace k with 0 by lia. reflexivity. }
  destruct (Nat.eqb_spec len 0) as [->|Hl].
  { destruct k; [lia|]. reflexivity. }
  rewrite mcombs_count, Nat.sub_0_r by lia.
  rewrite (mul_div_ok _ (fun i => binom (len + k - 1) i) k).
  - reflexivity.
  - apply binom_0.
  - intros i Hi. rewrite binom_next by lia.
    rewrite Nat2Z.inj_mul, Z.mul_comm. f_equal. lia.
  - lia.
Qed.

Lemma repeated_permutation_size_ok len n :
  size_of (row len n) (repeated_permutation_size len n).
Proof.
  unfold repeated_permutation_size. destruct (Z.ltb_spec n 0) as [H|H].
  { apply (size_neg _ n); [exact H|]. intros r (Hr & _). exact Hr. }
  remember (Z.to_nat n) as k eqn:Ek. replace n with (Z.of_nat k) by lia. clear Ek H n.
  exists (words len k). split; [apply words_enum|]. rewrite words_count, Nat2Z.inj_pow.
  destruct (Z.eqb_spec (Z.of_nat k) 0) as [->|]; reflexivity.
Qed.

Lemma falling_fall d : forall m, d <= m -> falling (Z.of_nat m) d = Z.of_nat (fall m d).
Proof.
  assert (G : forall d m, d < m -> falling (Z.of_nat m) (S d) = (Z.of_nat m * falling (Z.of_nat (m - 1)) d)%Z).
  { clear. induction d as [|d IH]; intros m Hd.
    - cbn [falling]. lia.
    - change (falling (Z.of_nat m) (S (S d))) with (falling (Z.of_nat m) (S d) * (Z.of_nat m - Z.of_nat (S d)))%Z.
      rewrite IH by lia. cbn [falling]. rewrite <- Z.mul_assoc. f_equal. f_equal. lia. }
  induction d as [|d IH]; intros m Hd; [reflexivity|].
  rewrite G by lia. rewrite IH by lia. cbn [fall]. lia.
Qed.

Lemma permutation_size_ok len n :
  size_of (fun r => row len (match n with Some n => n | None => Z.of_nat len end) r /\ NoDup r)
    (permutation_size len n).
Proof.
  unfold permutation_size. set (m := match n with Some n => n | None => Z.of_nat len end).
  clearbody m. clear n. destruct (Z.ltb_spec m 0) as [H|H]; cbn [orb].
  { apply (size_neg _ m); [exact H|]. intros r ((Hr & _) & _). exact Hr. }
  remember (Z.to_nat m) as k eqn:Ek. replace m with (Z.of_nat k) by lia. clear Ek H m.
  exists (perms k (seq 0 len)). split; [apply perms_enum|].
  destruct (Z.ltb_spec (Z.of_nat len) (Z.of_nat k)) as [H|H].
  { destruct (perms k (seq 0 len)) as [|r l] eqn:E; [reflexivity|].
    destruct (proj1 (perms_in k (seq 0 len) r (seq_NoDup _ _))) as (Hl & Hd & Hi).
    - rewrite E. left. reflexivity.
    - pose proof (NoDup_incl_length Hd Hi) as G. rewrite seq_length in G. lia. }
  rewrite perms_count by (rewrite seq_length; lia). rewrite seq_length.
  destruct (Z.eqb_spec (Z.of_nat k) 0) as [H0|H0].
  { replace k with 0 by lia. reflexivity. }
  rewrite falling_fall by lia. reflexivity.
Qed.
