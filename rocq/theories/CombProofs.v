(** Proofs about combination, repeated_permutation and repeated_combination. *)
From Coq Require Import ZArith List Bool Lia Sorted.
From Verif Require Import CombModel CombSpec.
Import ListNotations.
Local Open Scope nat_scope.

(* ------------------------------------------------------------------ *)
(** ** Machines on the end of the list of positions *)

(** One step: a next state, or the state left behind when there is none. *)
Inductive adv (St : Type) := Next (s : St) | Over (s : St).
Arguments Next {St}. Arguments Over {St}.

(** The rows shown from a state on, and the state left behind. *)
Inductive path {St : Type} (step : St -> adv St) (out : St -> list nat)
  : St -> list (list nat) -> St -> Prop :=
| path_over st st' : step st = Over st' -> path step out st [out st] st'
| path_next st st1 l st' : step st = Next st1 -> path step out st1 l st' ->
    path step out st (out st :: l) st'.

(** Steps that stay inside a level show the rows of the level below. *)
Lemma lift_over {St T} (step : St -> adv St) (out : St -> list nat)
    (step' : T -> adv T) (out' : T -> list nat) (emb : St -> T) x fin0 :
  (forall st, out' (emb st) = x :: out st) ->
  (forall st st', step st = Next st' -> step' (emb st) = Next (emb st')) ->
  forall st l st', path step out st l st' ->
  (forall st0, step st0 = Over st' -> step' (emb st0) = Over fin0) ->
  path step' out' (emb st) (map (cons x) l) fin0.
Proof.
  intros Ho Hn st l st' Hp. induction Hp; intros Hl; cbn [map].
  - rewrite <- Ho. apply path_over. apply Hl. assumption.
  - rewrite <- Ho. eapply path_next; [apply Hn; eassumption|]. apply IHHp. exact Hl.
Qed.

Lemma lift_next {St T} (step : St -> adv St) (out : St -> list nat)
    (step' : T -> adv T) (out' : T -> list nat) (emb : St -> T) x st1 l2 st2 :
  (forall st, out' (emb st) = x :: out st) ->
  (forall st st', step st = Next st' -> step' (emb st) = Next (emb st')) ->
  forall st l st', path step out st l st' ->
  (forall st0, step st0 = Over st' -> step' (emb st0) = Next st1) ->
  path step' out' st1 l2 st2 ->
  path step' out' (emb st) (map (cons x) l ++ l2) st2.
Proof.
  intros Ho Hn st l st' Hp. induction Hp; intros Hl Hp2; cbn [map app].
  - rewrite <- Ho. eapply path_next; [apply Hl; eassumption|exact Hp2].
  - rewrite <- Ho. eapply path_next; [apply Hn; eassumption|].
    apply IHHp; assumption.
Qed.

Definition forget {St} (a : adv St) : option St :=
  match a with Next s => Some s | Over _ => None end.

(** A loop whose step agrees with a machine where an invariant holds shows the
    rows of the path. *)
Lemma run_path {St} (step : St -> adv St) (rs : St -> option St) out (I : St -> Prop) :
  (forall st, I st -> rs st = forget (step st)) ->
  (forall st st', I st -> step st = Next st' -> I st') ->
  forall st l st', path step out st l st' -> I st ->
  forall f, length l <= f -> run rs out f st = Some l.
Proof.
  intros Hs Hi st l st' Hp. induction Hp; intros HI f Hf.
  - destruct f; cbn in Hf; [lia|]. cbn [run]. rewrite Hs by assumption. rewrite H.
    reflexivity.
  - destruct f; cbn in Hf; [lia|]. cbn [run]. rewrite Hs by assumption. rewrite H.
    cbn [forget]. rewrite IHHp; [reflexivity| |lia]. eapply Hi; eassumption.
Qed.

(* ------------------------------------------------------------------ *)
(** ** Lists *)

Lemma set_nth_length l : forall i v, length (set_nth l i v) = length l.
Proof. induction l; intros [|i] v; cbn; try reflexivity. now rewrite IHl. Qed.

Lemma set_nth_mid p x s v : set_nth (p ++ x :: s) (length p) v = p ++ v :: s.
Proof. induction p; cbn; congruence. Qed.

Lemma at_mid p x s : at_ (p ++ x :: s) (length p) = x.
Proof. unfold at_. induction p; cbn; congruence. Qed.

Lemma snoc_eq (p : list nat) x s : (p ++ [x]) ++ s = p ++ x :: s.
Proof. rewrite <- app_assoc. reflexivity. Qed.

Lemma snoc_len (p : list nat) x : length (p ++ [x]) = S (length p).
Proof. rewrite app_length. cbn. lia. Qed.

Lemma flat_map_seq_S {A} (f : nat -> list A) lo c :
  flat_map f (seq lo (S c)) = f lo ++ flat_map f (seq (S lo) c).
Proof. reflexivity. Qed.

(* ------------------------------------------------------------------ *)
(** ** combination *)

Fixpoint combs (len k lo : nat) : list (list nat) :=
  match k with
  | O => [[]]
  | S k' => flat_map (fun x => map (cons x) (combs len k' (S x))) (seq lo (len - k' - lo))
  end.

Fixpoint comb_adv (len : nat) (s : list nat) : adv (list nat) :=
  match s with
  | [] => Over []
  | x :: t =>
      match comb_adv len t with
      | Next t' => Next (x :: t')
      | Over t' =>
          if x =? len - length s then Over (x :: t')
          else Next (x + 1 :: seq (x + 2) (length t))
      end
  end.

Definition idl (l : list nat) : list nat := l.

Lemma comb_over len s : forall s', comb_adv len s = Over s' -> s' = s.
Proof.
  induction s as [|x t IH]; intros s' H; cbn [comb_adv] in H.
  - inversion H. reflexivity.
  - destruct (comb_adv len t) as [t'|t'] eqn:E; [discriminate|].
    destruct (x =? len - length (x :: t)); [|discriminate].
    injection H as <-. rewrite (IH t' eq_refl). reflexivity.
Qed.

Lemma comb_next_length len s : forall s', comb_adv len s = Next s' -> length s' = length s.
Proof.
  induction s as [|x t IH]; intros s' H; cbn [comb_adv] in H; [discriminate|].
  destruct (comb_adv len t) as [t'|t'] eqn:E.
  - injection H as <-. cbn. rewrite (IH t' eq_refl). reflexivity.
  - destruct (x =? len - length (x :: t)); [discriminate|].
    injection H as <-. cbn [length]. rewrite seq_length. reflexivity.
Qed.

Lemma comb_path_length len : forall st l st', path (comb_adv len) idl st l st' ->
  length st' = length st.
Proof.
  intros st l st' P. induction P.
  - rewrite (comb_over _ _ _ H). reflexivity.
  - rewrite IHP. apply (comb_next_length len). assumption.
Qed.

Lemma comb_path len k : forall c lo, lo + k + c = S len -> c >= 1 ->
  exists fin0, path (comb_adv len) idl (seq lo k) (combs len k lo) fin0.
Proof.
  induction k as [|k IHk]; intros c lo Hlen Hc.
  - exists []. cbn [seq combs]. apply (path_over (comb_adv len) idl [] []). reflexivity.
  - revert lo Hlen Hc. induction c as [|c IHc]; intros lo Hlen Hc; [lia|].
    destruct (IHk (S c) (S lo)) as (f1 & P1); [lia|lia|].
    cbn [combs].
    replace (len - k - lo) with (S c) by lia.
    rewrite flat_map_seq_S.
    destruct c as [|c].
    + cbn [seq flat_map]. rewrite app_nil_r. exists (lo :: f1).
      cbn [seq]. apply (lift_over (comb_adv len) idl (comb_adv len) idl (cons lo)) with (st' := f1).
      * reflexivity.
      * intros st st' H. cbn [comb_adv]. rewrite H. reflexivity.
      * exact P1.
      * intros st0 H. cbn [comb_adv]. rewrite H.
        assert (length st0 = k).
        { pose proof (comb_over _ _ _ H) as E0. pose proof (comb_path_length _ _ _ _ P1) as L1.
          rewrite seq_length in L1. rewrite <- E0. exact L1. }
        cbn [length]. replace (lo =? len - S (length st0)) with true; [reflexivity|].
        symmetry. apply Nat.eqb_eq. lia.
    + destruct (IHc (S lo)) as (f2 & P2); [lia|lia|].
      exists f2. cbn [seq].
      apply (lift_next (comb_adv len) idl (comb_adv len) idl (cons lo))
        with (st' := f1) (st1 := seq (S lo) (S k)).
      * reflexivity.
      * intros st st' H. cbn [comb_adv]. rewrite H. reflexivity.
      * exact P1.
      * intros st0 H. cbn [comb_adv]. rewrite H.
        assert (length st0 = k).
        { pose proof (comb_over _ _ _ H) as E0. pose proof (comb_path_length _ _ _ _ P1) as L1.
          rewrite seq_length in L1. rewrite <- E0. exact L1. }
        cbn [length]. replace (lo =? len - S (length st0)) with false.
        -- cbn [seq]. rewrite H0. repeat f_equal; lia.
        -- symmetry. apply Nat.eqb_neq. lia.
      * cbn [combs] in P2.
        replace (len - k - S lo) with (S c) in P2 by lia. exact P2.
Qed.

(** The scan over the whole array is the machine. *)
Lemma comb_fill_ok c : forall p x s, length s = c ->
  comb_fill (p ++ x :: s) (S (length p)) c = p ++ x :: seq (S x) c.
Proof.
  induction c as [|c IH]; intros p x s Hs.
  - destruct s; [reflexivity|discriminate].
  - destruct s as [|y s]; [discriminate|]. cbn [comb_fill].
    replace (S (length p) - 1) with (length p) by lia.
    rewrite at_mid. cbn [seq].
    replace (p ++ x :: y :: s) with ((p ++ [x]) ++ y :: s) by (rewrite snoc_eq; reflexivity).
    replace (S (length p)) with (length (p ++ [x])) by apply snoc_len.
    rewrite set_nth_mid. rewrite (IH (p ++ [x]) (x + 1) s) by (cbn in Hs; lia).
    rewrite snoc_eq. repeat f_equal; lia.
Qed.

Lemma comb_scan_ok len n : n <= len -> forall s p, length p + length s = n ->
  comb_scan (p ++ s) len n (length p + length s) =
    match comb_adv len s with
    | Over _ => comb_scan (p ++ s) len n (length p)
    | Next _ => comb_scan (p ++ s) len n (length p + length s)
    end /\
  (forall s', comb_adv len s = Next s' ->
     match comb_scan (p ++ s) len n (length p + length s) with
     | None => None
     | Some i => Some (comb_fill (set_nth (p ++ s) i (at_ (p ++ s) i + 1)) (i + 1) (n - (i + 1)))
     end = Some (p ++ s')).
Proof.
  intros Hn s. induction s as [|x t IH]; intros p Hp.
  - cbn. split; [|discriminate]. f_equal. lia.
  - specialize (IH (p ++ [x])). rewrite snoc_len, snoc_eq in IH. cbn [length] in *.
    replace (S (length p) + length t) with (length p + S (length t)) in IH by lia.
    destruct (IH ltac:(lia)) as (IH1 & IH2). clear IH.
    cbn [comb_adv]. destruct (comb_adv len t) as [t'|t'] eqn:E.
    + split; [reflexivity|]. intros s' H. injection H as <-.
      rewrite (IH2 t' eq_refl). rewrite snoc_eq. reflexivity.
    + cbn [comb_scan] in IH1. rewrite at_mid in IH1.
      cbn [length].
      destruct (x =? len - S (length t)) eqn:Ex.
      * split; [|discriminate]. rewrite IH1.
        replace (x =? len - n + length p) with true; [reflexivity|].
        symmetry. apply Nat.eqb_eq. apply Nat.eqb_eq in Ex. lia.
      * split; [reflexivity|]. intros s' H. injection H as <-. rewrite IH1.
        replace (x =? len - n + length p) with false.
        -- rewrite at_mid, set_nth_mid.
           replace (length p + 1) with (S (length p)) by lia.
           rewrite comb_fill_ok by lia. repeat f_equal; lia.
        -- symmetry. apply Nat.eqb_neq. apply Nat.eqb_neq in Ex. lia.
Qed.

Lemma comb_step_ok len n s : n <= len -> length s = n ->
  comb_step len n s = forget (comb_adv len s).
Proof.
  intros Hn Hs. destruct (comb_scan_ok len n Hn s [] Hs) as (H1 & H2).
  cbn [app length] in *. rewrite Nat.add_0_l in *. rewrite Hs in *. unfold comb_step.
  destruct (comb_adv len s) as [s'|s'].
  - rewrite (H2 s' eq_refl). reflexivity.
  - rewrite H1. reflexivity.
Qed.

(** ** What the rows are *)

Lemma ss_app {A} (R : A -> A -> Prop) (a b : list A) :
  StronglySorted R a -> StronglySorted R b ->
  (forall x y, In x a -> In y b -> R x y) -> StronglySorted R (a ++ b).
Proof.
  intros Ha Hb H. induction Ha as [|x a Ha IH Hx]; cbn; [exact Hb|].
  constructor.
  - apply IH. intros u v Hu Hv. apply H; [right; exact Hu|exact Hv].
  - apply Forall_app. split; [exact Hx|].
    apply Forall_forall. intros v Hv. apply H; [left; reflexivity|exact Hv].
Qed.

Lemma ss_map_cons x rows : StronglySorted lex rows -> StronglySorted lex (map (cons x) rows).
Proof.
  intros H. induction H as [|r rows H IH Hr]; cbn; [constructor|].
  constructor; [exact IH|]. apply Forall_forall. intros y Hy.
  apply in_map_iff in Hy. destruct Hy as (z & <- & Hz).
  rewrite Forall_forall in Hr. cbn. right. split; [reflexivity|]. apply Hr. exact Hz.
Qed.

Lemma ss_flat {K} (key : K -> nat) (f : K -> list (list nat)) ks :
  StronglySorted (fun a b => key a < key b) ks ->
  (forall k, In k ks -> StronglySorted lex (f k)) ->
  StronglySorted lex (flat_map (fun k => map (cons (key k)) (f k)) ks).
Proof.
  intros H Hf. induction H as [|k ks H IH Hk]; cbn; [constructor|].
  apply ss_app.
  - apply ss_map_cons. apply Hf. left. reflexivity.
  - apply IH. intros k' Hin. apply Hf. right. exact Hin.
  - intros a b Ha Hb. apply in_map_iff in Ha. destruct Ha as (a' & <- & Ha).
    apply in_flat_map in Hb. destruct Hb as (k' & Hk' & Hb).
    apply in_map_iff in Hb. destruct Hb as (b' & <- & Hb).
    rewrite Forall_forall in Hk. cbn. left. apply Hk. exact Hk'.
Qed.

Lemma ss_seq lo c : StronglySorted (fun a b => a < b) (seq lo c).
Proof.
  revert lo. induction c; intros lo; cbn; constructor; [apply IHc|].
  apply Forall_forall. intros x Hx. apply in_seq in Hx. lia.
Qed.

Lemma combs_sorted len k : forall lo, StronglySorted lex (combs len k lo).
Proof.
  induction k; intros lo; cbn [combs]; [repeat constructor|].
  apply (ss_flat (fun x => x) (fun x => combs len k (S x))).
  - apply ss_seq.
  - intros. apply IHk.
Qed.

Lemma combs_in len k : forall lo r, In r (combs len k lo) <->
  length r = k /\ increasing r /\ Forall (fun i => lo <= i < len) r.
Proof.
  induction k as [|k IH]; intros lo r.
  - cbn. split.
    + intros [<-|[]]. repeat split; constructor.
    + intros (H & _). left. destruct r; [reflexivity|discriminate].
  - cbn [combs]. rewrite in_flat_map. split.
    + intros (x & Hx & Hr). apply in_map_iff in Hr. destruct Hr as (t & <- & Ht).
      apply IH in Ht. destruct Ht as (Hl & Hi & Hf). apply in_seq in Hx.
      split; [cbn; lia|]. split.
      * constructor; [exact Hi|]. eapply Forall_impl; [|exact Hf]. intros a Ha. cbn in Ha. lia.
      * constructor; [lia|]. eapply Forall_impl; [|exact Hf]. intros a Ha. cbn in Ha. lia.
    + intros (Hl & Hi & Hf). destruct r as [|x t]; [discriminate|].
      inversion Hi as [|? ? Hi' Hx]; subst. inversion Hf as [|? ? Hxl Hft]; subst.
      assert (Ht : In t (combs len k (S x))).
      { apply IH. split; [cbn in Hl; lia|]. split; [exact Hi'|].
        apply Forall_forall. intros a Ha. rewrite Forall_forall in Hx, Hft.
        specialize (Hx a Ha). specialize (Hft a Ha). lia. }
      exists x. split; [|apply in_map; exact Ht].
      assert (S x + k <= len).
      { clear -Hl Hi' Hx Hft Hxl. cbn in Hl. injection Hl as Hl.
        revert x k Hl Hx Hxl. induction t as [|y t IHt]; intros x k Hl Hx Hxl; cbn in Hl.
        - lia.
        - inversion Hi' as [|? ? Hi2 Hy]; subst. inversion Hft as [|? ? Hyl Hf2]; subst.
          inversion Hx; subst.
          specialize (IHt Hi2 Hf2 y (length t) eq_refl Hy Hyl). lia. }
      apply in_seq. lia.
Qed.

Lemma enum_none P : (forall r, ~ P r) -> enumerates P [].
Proof. intros H. split; [constructor|]. intros r. split; [intros []|apply H]. Qed.

Lemma enum_nil (P : list nat -> Prop) : (forall r, P r <-> r = []) -> enumerates P [[]].
Proof.
  intros H. split; [repeat constructor|]. intros r. rewrite H. cbn. intuition congruence.
Qed.

Lemma enum_ones (P : list nat -> Prop) len :
  (forall r, P r <-> exists i, r = [i] /\ i < len) ->
  enumerates P (map (fun i => [i]) (seq 0 len)).
Proof.
  intros H. split.
  - generalize 0 as lo. induction len as [|c IH] in P, H |- *; [constructor|].
    intros lo. cbn. constructor.
    + assert (G : forall r, (exists i, r = [i] /\ i < c) <-> exists i, r = [i] /\ i < c) by tauto.
      exact (IH _ G (S lo)).
    + apply Forall_forall. intros y Hy. apply in_map_iff in Hy. destruct Hy as (i & <- & Hi).
      apply in_seq in Hi. cbn. left. lia.
  - intros r. rewrite in_map_iff, H. split.
    + intros (i & <- & Hi). apply in_seq in Hi. exists i. split; [reflexivity|lia].
    + intros (i & -> & Hi). exists i. split; [reflexivity|]. apply in_seq. lia.
Qed.

Lemma yields_const (P : list nat -> Prop) g rows :
  (forall f, g f = Some rows) -> enumerates P rows -> yields g P.
Proof. intros H He. exists rows. split; [exact He|]. exists 0. intros f' _. apply H. Qed.

(** combination(n) yields the increasing rows of n positions, each once and
    in lexicographic order. *)
Lemma combination_ok len n :
  yields (fun fuel => combination fuel len n) (fun r => row len n r /\ increasing r).
Proof.
  unfold combination. destruct (Z.eqb_spec n 0) as [->|H0].
  { apply (yields_const _ _ [[]]); [reflexivity|]. apply enum_nil. intros r. unfold row. split.
    - intros ((H & _) & _). destruct r; [reflexivity|]. cbn in H. lia.
    - intros ->. repeat split; constructor. }
  destruct (Z.eqb_spec n 1) as [->|H1].
  { eapply yields_const; [reflexivity|]. apply enum_ones. intros r. unfold row. split.
    - intros ((H & Hf) & _). destruct r as [|i [|j r]]; cbn in H; try lia.
      inversion Hf; subst. exists i. split; [reflexivity|assumption].
    - intros (i & -> & Hi). repeat split; repeat constructor. exact Hi. }
  destruct ((0 <? n) && (n <=? Z.of_nat len))%Z eqn:E.
  - apply andb_prop in E. destruct E as (Ea & Eb).
    apply Z.ltb_lt in Ea. apply Z.leb_le in Eb.
    set (k := Z.to_nat n). assert (Hk : Z.of_nat k = n) by (unfold k; lia).
    destruct (comb_path len k (S len - k) 0) as (fin0 & P); [lia|lia|].
    exists (combs len k 0). split.
    + split; [apply combs_sorted|]. intros r. rewrite combs_in. unfold row. split.
      * intros (Hl & Hi & Hf). repeat split; [lia| |exact Hi].
        eapply Forall_impl; [|exact Hf]. intros a Ha. cbn in Ha. lia.
      * intros ((Hl & Hf) & Hi). repeat split; [lia|exact Hi|].
        eapply Forall_impl; [|exact Hf]. intros a Ha. cbn in Ha. lia.
    + exists (length (combs len k 0)). intros f' Hf'.
      apply (run_path (comb_adv len) (comb_step len k) idl (fun s => length s = k)) with (st' := fin0).
      * intros st Hst. apply comb_step_ok; [lia|exact Hst].
      * intros st st' Hst Hn. rewrite (comb_next_length _ _ _ Hn). exact Hst.
      * exact P.
      * apply seq_length.
      * exact Hf'.
  - apply (yields_const _ _ []); [reflexivity|]. apply enum_none. intros r ((Hl & Hf) & Hi).
    assert (length r <= len).
    { clear -Hf Hi. assert (G : forall lo r, increasing r -> Forall (fun i => lo <= i < len) r -> length r <= len - lo).
      { clear. intros lo r. revert lo. induction r as [|x r IH]; intros lo Hi Hf; [cbn; lia|].
        inversion Hi; subst. inversion Hf; subst. cbn.
        assert (length r <= len - S x); [|lia]. apply IH; [assumption|].
        apply Forall_forall. intros y Hy. rewrite Forall_forall in *.
        specialize (H2 y Hy). specialize (H4 y Hy). cbn in *. lia. }
      specialize (G 0 r Hi). rewrite Nat.sub_0_r in G. apply G.
      eapply Forall_impl; [|exact Hf]. intros a Ha. cbn in *. lia. }
    apply andb_false_iff in E. destruct E as [E|E].
    + apply Z.ltb_ge in E. lia.
    + apply Z.leb_gt in E. lia.
Qed.

(* ------------------------------------------------------------------ *)
(** ** repeated_permutation *)

Fixpoint words (len k : nat) : list (list nat) :=
  match k with
  | O => [[]]
  | S k' => flat_map (fun x => map (cons x) (words len k')) (seq 0 len)
  end.

Fixpoint odo_adv (len : nat) (s : list nat) : adv (list nat) :=
  match s with
  | [] => Over []
  | x :: t =>
      match odo_adv len t with
      | Next t' => Next (x :: t')
      | Over t' => if x + 1 <? len then Next (x + 1 :: t') else Over (0 :: t')
      end
  end.

Lemma odo_path len k : len > 0 ->
  path (odo_adv len) idl (repeat 0 k) (words len k) (repeat 0 k).
Proof.
  intros Hlen. induction k as [|k IHk].
  - cbn [repeat words]. apply (path_over (odo_adv len) idl [] []). reflexivity.
  - cbn [words].
    assert (G : forall c lo, lo + S c = len ->
      path (odo_adv len) idl (lo :: repeat 0 k)
        (flat_map (fun x => map (cons x) (words len k)) (seq lo (S c))) (repeat 0 (S k))).
    { induction c as [|c IHc]; intros lo H.
      - cbn [seq flat_map]. rewrite app_nil_r.
        apply (lift_over (odo_adv len) idl (odo_adv len) idl (cons lo)) with (st' := repeat 0 k).
        + reflexivity.
        + intros st st' Hs. cbn [odo_adv]. rewrite Hs. reflexivity.
        + exact IHk.
        + intros st0 Hs. cbn [odo_adv]. rewrite Hs.
          replace (lo + 1 <? len) with false; [reflexivity|].
          symmetry. apply Nat.ltb_ge. lia.
      - rewrite flat_map_seq_S.
        apply (lift_next (odo_adv len) idl (odo_adv len) idl (cons lo))
          with (st' := repeat 0 k) (st1 := S lo :: repeat 0 k).
        + reflexivity.
        + intros st st' Hs. cbn [odo_adv]. rewrite Hs. reflexivity.
        + exact IHk.
        + intros st0 Hs. cbn [odo_adv]. rewrite Hs.
          replace (lo + 1 <? len) with true; [repeat f_equal; lia|].
          symmetry. apply Nat.ltb_lt. lia.
        + apply IHc. lia. }
    destruct len as [|c]; [lia|]. apply G. lia.
Qed.

Lemma odo_scan_ok len : forall s p,
  odo_scan len (p ++ s) (length p + length s) =
    match odo_adv len s with
    | Next s' => Some (p ++ s')
    | Over s' => odo_scan len (p ++ s') (length p)
    end.
Proof.
  induction s as [|x t IH]; intros p.
  - cbn. f_equal. lia.
  - specialize (IH (p ++ [x])). rewrite snoc_len, snoc_eq in IH. cbn [length] in *.
    replace (S (length p) + length t) with (length p + S (length t)) in IH by lia.
    rewrite IH. clear IH. cbn [odo_adv]. destruct (odo_adv len t) as [t'|t'].
    + rewrite snoc_eq. reflexivity.
    + cbn [odo_scan]. rewrite !snoc_eq. rewrite at_mid, set_nth_mid, at_mid.
      destruct (x + 1 <? len); [reflexivity|]. rewrite set_nth_mid. reflexivity.
Qed.

Lemma odo_next_length len s : forall s',
  (odo_adv len s = Next s' \/ odo_adv len s = Over s') -> length s' = length s.
Proof.
  induction s as [|x t IH]; intros s' H; cbn [odo_adv] in H.
  - destruct H as [H|H]; [discriminate|]. inversion H. reflexivity.
  - destruct (odo_adv len t) as [t'|t'] eqn:E.
    + destruct H as [H|H]; [|discriminate]. injection H as <-. cbn. rewrite (IH t' (or_introl eq_refl)). reflexivity.
    + pose proof (IH t' (or_intror eq_refl)) as Hl.
      destruct (x + 1 <? len); destruct H as [H|H]; try discriminate; injection H as <-; cbn; rewrite Hl; reflexivity.
Qed.

Lemma words_sorted len k : StronglySorted lex (words len k).
Proof.
  induction k; cbn [words]; [repeat constructor|].
  apply (ss_flat (fun x => x) (fun _ => words len k)); [apply ss_seq|intros; exact IHk].
Qed.

Lemma words_in len k : forall r, In r (words len k) <->
  length r = k /\ Forall (fun i => i < len) r.
Proof.
  induction k as [|k IH]; intros r.
  - cbn. split.
    + intros [<-|[]]. split; constructor.
    + intros (H & _). left. destruct r; [reflexivity|discriminate].
  - cbn [words]. rewrite in_flat_map. split.
    + intros (x & Hx & Hr). apply in_map_iff in Hr. destruct Hr as (t & <- & Ht).
      apply IH in Ht. destruct Ht as (Hl & Hf). apply in_seq in Hx.
      split; [cbn; lia|]. constructor; [lia|exact Hf].
    + intros (Hl & Hf). destruct r as [|x t]; [discriminate|]. inversion Hf; subst.
      exists x. split; [apply in_seq; lia|]. apply in_map. apply IH.
      split; [cbn in Hl; lia|assumption].
Qed.

(** repeated_permutation(n) yields all rows of n positions. *)
Lemma repeated_permutation_ok len n :
  yields (fun fuel => repeated_permutation fuel len n) (row len n).
Proof.
  unfold repeated_permutation. destruct (Z.eqb_spec n 0) as [->|H0].
  { apply (yields_const _ _ [[]]); [reflexivity|]. apply enum_nil. intros r. unfold row. split.
    - intros (H & _). destruct r; [reflexivity|]. cbn in H. lia.
    - intros ->. repeat split; constructor. }
  destruct (Nat.eqb_spec len 0) as [->|Hl].
  { apply (yields_const _ _ []); [reflexivity|]. apply enum_none. intros r (H & Hf).
    destruct r as [|x r]; [cbn in H; lia|]. inversion Hf; subst. lia. }
  destruct (0 <? n)%Z eqn:E.
  - apply Z.ltb_lt in E. set (k := Z.to_nat n). assert (Hk : Z.of_nat k = n) by (unfold k; lia).
    exists (words len k). split.
    + split; [apply words_sorted|]. intros r. rewrite words_in. unfold row. intuition lia.
    + exists (length (words len k)). intros f' Hf'.
      apply (run_path (odo_adv len) (fun ind => odo_scan len ind k) idl (fun s => length s = k)) with (st' := repeat 0 k).
      * intros st Hst. pose proof (odo_scan_ok len st []) as G. cbn [app length] in G.
        rewrite Nat.add_0_l, Hst in G. rewrite G. destruct (odo_adv len st); reflexivity.
      * intros st st' Hst Hn. rewrite (odo_next_length len st st' (or_introl Hn)). exact Hst.
      * apply odo_path. lia.
      * apply repeat_length.
      * exact Hf'.
  - apply Z.ltb_ge in E. apply (yields_const _ _ []); [reflexivity|]. apply enum_none.
    intros r (H & _). lia.
Qed.

(* ------------------------------------------------------------------ *)
(** ** repeated_combination *)

Fixpoint mcombs (len k lo : nat) : list (list nat) :=
  match k with
  | O => [[]]
  | S k' => flat_map (fun x => map (cons x) (mcombs len k' x)) (seq lo (len - lo))
  end.

Fixpoint rep_adv (len : nat) (s : list nat) : adv (list nat) :=
  match s with
  | [] => Over []
  | x :: t =>
      match rep_adv len t with
      | Next t' => Next (x :: t')
      | Over t' => if x + 1 <? len then Next (repeat (x + 1) (length s))
                   else Over (x + 1 :: t')
      end
  end.

Lemma rep_length len s : forall s',
  (rep_adv len s = Next s' \/ rep_adv len s = Over s') -> length s' = length s.
Proof.
  induction s as [|x t IH]; intros s' H; cbn [rep_adv] in H.
  - destruct H as [H|H]; [discriminate|]. inversion H. reflexivity.
  - destruct (rep_adv len t) as [t'|t'] eqn:E.
    + destruct H as [H|H]; [|discriminate]. injection H as <-. cbn. rewrite (IH t' (or_introl eq_refl)). reflexivity.
    + pose proof (IH t' (or_intror eq_refl)) as Hl.
      destruct (x + 1 <? len); destruct H as [H|H]; try discriminate; injection H as <-.
      * cbn [length repeat]. rewrite repeat_length. reflexivity.
      * cbn. rewrite Hl. reflexivity.
Qed.

Lemma path_length len : forall st l st', path (rep_adv len) idl st l st' ->
  length st' = length st.
Proof.
  intros st l st' P. induction P.
  - apply (rep_length len). right. assumption.
  - rewrite IHP. apply (rep_length len). left. assumption.
Qed.

Lemma rep_path len k : forall c lo, lo + S c = len ->
  exists fin0, path (rep_adv len) idl (repeat lo k) (mcombs len k lo) fin0.
Proof.
  induction k as [|k IHk].
  - intros. exists []. cbn [repeat mcombs]. apply (path_over (rep_adv len) idl [] []). reflexivity.
  - induction c as [|c IHc]; intros lo H.
    + destruct (IHk 0 lo H) as (f1 & P1). cbn [mcombs].
      replace (len - lo) with 1 by lia. cbn [seq flat_map]. rewrite app_nil_r.
      exists (lo + 1 :: f1). cbn [repeat].
      apply (lift_over (rep_adv len) idl (rep_adv len) idl (cons lo)) with (st' := f1).
      * reflexivity.
      * intros st st' Hs. cbn [rep_adv]. rewrite Hs. reflexivity.
      * exact P1.
      * intros st0 Hs. cbn [rep_adv]. rewrite Hs.
        replace (lo + 1 <? len) with false; [reflexivity|]. symmetry. apply Nat.ltb_ge. lia.
    + destruct (IHk (S c) lo H) as (f1 & P1).
      destruct (IHc (S lo)) as (f2 & P2); [lia|].
      exists f2. cbn [mcombs]. replace (len - lo) with (S (S c)) by lia.
      rewrite flat_map_seq_S. cbn [repeat].
      apply (lift_next (rep_adv len) idl (rep_adv len) idl (cons lo))
        with (st' := f1) (st1 := repeat (S lo) (S k)).
      * reflexivity.
      * intros st st' Hs. cbn [rep_adv]. rewrite Hs. reflexivity.
      * exact P1.
      * intros st0 Hs. cbn [rep_adv]. rewrite Hs.
        replace (lo + 1 <? len) with true by (symmetry; apply Nat.ltb_lt; lia).
        pose proof (path_length _ _ _ _ P1) as L1. rewrite repeat_length in L1.
        pose proof (rep_length len st0 f1 (or_intror Hs)) as L2.
        cbn [length]. replace (length st0) with k by lia.
        repeat f_equal; lia.
      * cbn [mcombs] in P2. replace (len - S lo) with (S c) in P2 by lia. exact P2.
Qed.

Lemma spread_ok c : forall p x m s, length s = c ->
  spread (p ++ x :: m ++ s) (length p) (length p + S (length m)) c = p ++ x :: m ++ repeat x c.
Proof.
  induction c as [|c IH]; intros p x m s Hs.
  - destruct s; [reflexivity|discriminate].
  - destruct s as [|y s]; [discriminate|]. cbn [spread]. rewrite at_mid.
    replace (p ++ x :: m ++ y :: s) with ((p ++ x :: m) ++ y :: s)
      by (rewrite <- app_assoc; reflexivity).
    replace (length p + S (length m)) with (length (p ++ x :: m)) by (rewrite app_length; reflexivity).
    rewrite set_nth_mid.
    replace ((p ++ x :: m) ++ x :: s) with (p ++ x :: (m ++ [x]) ++ s)
      by (rewrite <- !app_assoc; reflexivity).
    replace (S (length (p ++ x :: m))) with (length p + S (length (m ++ [x])))
      by (rewrite snoc_len, app_length; cbn; lia).
    rewrite IH by (cbn in Hs; lia). rewrite snoc_eq. reflexivity.
Qed.

Lemma rep_scan_ok len n : forall s p, length p + length s = n ->
  rep_scan len n (p ++ s) (length p + length s) =
    match rep_adv len s with
    | Next s' => Some (p ++ s')
    | Over s' => rep_scan len n (p ++ s') (length p)
    end.
Proof.
  induction s as [|x t IH]; intros p Hp.
  - cbn. f_equal. lia.
  - specialize (IH (p ++ [x])). rewrite snoc_len, snoc_eq in IH. cbn [length] in *.
    replace (S (length p) + length t) with (length p + S (length t)) in IH by lia.
    rewrite IH by lia. clear IH. cbn [rep_adv].
    destruct (rep_adv len t) as [t'|t'] eqn:E.
    + rewrite snoc_eq. reflexivity.
    + pose proof (rep_length len t t' (or_intror E)) as Hl.
      cbn [rep_scan]. rewrite !snoc_eq. rewrite at_mid, set_nth_mid, at_mid.
      destruct (x + 1 <? len); [|reflexivity].
      pose proof (spread_ok (length t') p (x + 1) [] t' eq_refl) as G.
      cbn [app length] in G. rewrite Hl in G.
      replace (n - (length p + 1)) with (length t) by lia. rewrite G.
      reflexivity.
Qed.

Lemma mcombs_sorted len k : forall lo, StronglySorted lex (mcombs len k lo).
Proof.
  induction k; intros lo; cbn [mcombs]; [repeat constructor|].
  apply (ss_flat (fun x => x) (fun x => mcombs len k x)); [apply ss_seq|intros; apply IHk].
Qed.

Lemma mcombs_in len k : forall lo r, In r (mcombs len k lo) <->
  length r = k /\ nondecreasing r /\ Forall (fun i => lo <= i < len) r.
Proof.
  induction k as [|k IH]; intros lo r.
  - cbn. split.
    + intros [<-|[]]. repeat split; constructor.
    + intros (H & _). left. destruct r; [reflexivity|discriminate].
  - cbn [mcombs]. rewrite in_flat_map. split.
    + intros (x & Hx & Hr). apply in_map_iff in Hr. destruct Hr as (t & <- & Ht).
      apply IH in Ht. destruct Ht as (Hl & Hi & Hf). apply in_seq in Hx.
      split; [cbn; lia|]. split.
      * constructor; [exact Hi|]. eapply Forall_impl; [|exact Hf]. intros a Ha. cbn in Ha. lia.
      * constructor; [lia|]. eapply Forall_impl; [|exact Hf]. intros a Ha. cbn in Ha. lia.
    + intros (Hl & Hi & Hf). destruct r as [|x t]; [discriminate|].
      inversion Hi as [|? ? Hi' Hx]; subst. inversion Hf as [|? ? Hxl Hft]; subst.
      exists x. split; [apply in_seq; lia|]. apply in_map. apply IH.
      split; [cbn in Hl; lia|]. split; [exact Hi'|].
      apply Forall_forall. intros a Ha. rewrite Forall_forall in Hx, Hft.
      specialize (Hx a Ha). specialize (Hft a Ha). lia.
Qed.

(** repeated_combination(n) yields the nondecreasing rows of n positions. *)
Lemma repeated_combination_ok len n :
  yields (fun fuel => repeated_combination fuel len n) (fun r => row len n r /\ nondecreasing r).
Proof.
  unfold repeated_combination. destruct (Z.eqb_spec n 0) as [->|H0].
  { apply (yields_const _ _ [[]]); [reflexivity|]. apply enum_nil. intros r. unfold row. split.
    - intros ((H & _) & _). destruct r; [reflexivity|]. cbn in H. lia.
    - intros ->. repeat split; constructor. }
  destruct (Z.eqb_spec n 1) as [->|H1].
  { eapply yields_const; [reflexivity|]. apply enum_ones. intros r. unfold row. split.
    - intros ((H & Hf) & _). destruct r as [|i [|j r]]; cbn in H; try lia.
      inversion Hf; subst. exists i. split; [reflexivity|assumption].
    - intros (i & -> & Hi). repeat split; repeat constructor. exact Hi. }
  destruct ((0 <? len) && (0 <? n)%Z) eqn:E.
  - apply andb_prop in E. destruct E as (Ea & Eb).
    apply Nat.ltb_lt in Ea. apply Z.ltb_lt in Eb.
    set (k := Z.to_nat n). assert (Hk : Z.of_nat k = n) by (unfold k; lia).
    destruct (rep_path len k (len - 1) 0) as (fin0 & P); [lia|].
    exists (mcombs len k 0). split.
    + split; [apply mcombs_sorted|]. intros r. rewrite mcombs_in. unfold row. split.
      * intros (Hl & Hi & Hf). repeat split; [lia| |exact Hi].
        eapply Forall_impl; [|exact Hf]. intros a Ha. cbn in Ha. lia.
      * intros ((Hl & Hf) & Hi). repeat split; [lia|exact Hi|].
        eapply Forall_impl; [|exact Hf]. intros a Ha. cbn in Ha. lia.
    + exists (length (mcombs len k 0)). intros f' Hf'.
      apply (run_path (rep_adv len) (fun ind => rep_scan len k ind k) idl (fun s => length s = k)) with (st' := fin0).
      * intros st Hst. pose proof (rep_scan_ok len k st [] Hst) as G. cbn [app length] in G.
        rewrite Nat.add_0_l, Hst in G. rewrite G. destruct (rep_adv len st); reflexivity.
      * intros st st' Hst Hn. rewrite (rep_length len st st' (or_introl Hn)). exact Hst.
      * exact P.
      * apply repeat_length.
      * exact Hf'.
  - apply (yields_const _ _ []); [reflexivity|]. apply enum_none. intros r ((Hl & Hf) & Hi).
    apply andb_false_iff in E. destruct E as [E|E].
    + apply Nat.ltb_ge in E. destruct r as [|x r]; [cbn in Hl; lia|].
      inversion Hf; subst. lia.
    + apply Z.ltb_ge in E. lia.
Qed.
