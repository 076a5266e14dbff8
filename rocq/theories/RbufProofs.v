(** Proofs about the read side. *)

From Coq Require Import ZArith Bool List Lia Arith.
From Verif Require Import RbufModel RbufSpec.
Import ListNotations.
Local Open Scope Z_scope.

Local Opaque capa chunk.
Lemma capa_pos : (0 < capa)%nat.
Proof. Transparent capa. unfold capa. lia. Qed.
Lemma chunk_pos : (0 < chunk)%nat.
Proof. Transparent chunk. unfold chunk. lia. Qed.
Lemma served_le want n : (served want n <= want)%nat.
Proof. unfold served. lia. Qed.
Lemma served_pos want n : (0 < want)%nat -> (0 < served want n)%nat.
Proof. unfold served. lia. Qed.
Local Opaque capa chunk served.

Lemma skipn_add {A} a : forall (l : list A) k, skipn a (skipn k l) = skipn (k + a) l.
Proof.
  intros l k; revert l; induction k as [|k IH]; intros l; [reflexivity|].
  destruct l as [|x l]; cbn; [apply skipn_nil|apply IH].
Qed.
Lemma firstn_all_ge {A} n (l : list A) : (length l <= n)%nat -> firstn n l = l.
Proof. apply firstn_all2. Qed.

(** ** The descriptor and its buffer *)

Definition under (s : io) : list Z := rest s ++ skipn (off s) (content s).
Definition lp (s : io) : nat := off s - length (rest s).

Record V (s : io) : Prop := {
  v_pos : (pos s <= length (page s))%nat;
  v_rest : (length (rest s) <= off s)%nat;
  v_slice : skipn (lp s) (content s) = under s;
  v_off : Z.of_nat (off s) < 2 ^ 63;
  v_len : Z.of_nat (length (content s)) < 2 ^ 63;
  v_stdin : kind s = KStdin -> pushback s = [] }.

Record moves (s : io) (b : list Z) (s' : io) : Prop := {
  m_V : V s';
  m_under : under s = b ++ under s';
  m_lp : lp s' = (lp s + length b)%nat;
  m_content : content s' = content s;
  m_kind : kind s' = kind s;
  m_pb : pushback s' = pushback s;
  m_w : wpend s' = wpend s }.

Lemma moves_refl s : V s -> moves s [] s.
Proof. intros; constructor; auto; cbn; lia. Qed.
Lemma moves_trans s b s1 c s2 : moves s b s1 -> moves s1 c s2 -> moves s (b ++ c) s2.
Proof.
  intros [] []; constructor; auto; try congruence.
  - rewrite m_under0, m_under1, app_assoc. reflexivity.
  - rewrite m_lp1, m_lp0, app_length. lia.
Qed.

Lemma rest_discard s : rest (discard s) = [].
Proof. reflexivity. Qed.
Lemma rest_length s : length (rest s) = (length (page s) - pos s)%nat.
Proof. unfold rest. apply skipn_length. Qed.

Lemma rest_consume n s : (pos s <= length (page s))%nat -> rest (consume n s) = skipn n (rest s).
Proof.
  intros L. unfold rest, consume. cbn [page pos set_page].
  rewrite skipn_add. destruct (Nat.le_gt_cases (pos s + n) (length (page s))) as [Q|Q].
  - rewrite Nat.min_l by exact Q. reflexivity.
  - rewrite Nat.min_r by lia. rewrite skipn_all, skipn_all2 by lia. reflexivity.
Qed.

Lemma consume_moves n s : V s -> (n <= length (rest s))%nat -> moves s (firstn n (rest s)) (consume n s).
Proof.
  intros Vs L. pose proof (rest_consume n s (v_pos s Vs)) as R.
  pose proof (v_rest s Vs) as LR.
  assert (LR' : length (rest (consume n s)) = (length (rest s) - n)%nat)
    by (rewrite R, skipn_length; reflexivity).
  assert (OFF : off (consume n s) = off s) by reflexivity.
  assert (LP : lp (consume n s) = (lp s + n)%nat) by (unfold lp; rewrite LR', OFF; lia).
  assert (U : under s = firstn n (rest s) ++ under (consume n s)).
  { unfold under. rewrite R. cbn [off content consume set_page].
    rewrite app_assoc, firstn_skipn. reflexivity. }
  constructor; auto.
  - constructor; auto.
    + cbn. apply Nat.le_min_r.
    + rewrite LR', OFF. lia.
    + rewrite LP. change (content (consume n s)) with (content s).
      rewrite <- skipn_add, (v_slice s Vs), U.
      rewrite skipn_app, skipn_all2 by (rewrite firstn_length; lia).
      rewrite firstn_length, Nat.min_l by lia. rewrite Nat.sub_diag. reflexivity.
    + apply Vs.
    + apply Vs.
    + apply Vs.
  - rewrite LP, firstn_length, Nat.min_l by lia. reflexivity.
Qed.

Lemma V_empty s : rest s = [] -> (pos s <= length (page s))%nat -> Z.of_nat (off s) < 2 ^ 63 ->
  Z.of_nat (length (content s)) < 2 ^ 63 -> (kind s = KStdin -> pushback s = []) -> V s.
Proof.
  intros R P O L K. constructor; auto.
  - rewrite R. cbn. lia.
  - unfold under, lp. rewrite R. cbn. rewrite Nat.sub_0_r. reflexivity.
Qed.

Lemma rest_nil_page s : V s -> (length (page s) <= pos s)%nat -> rest s = [].
Proof. intros Vs L. unfold rest. apply skipn_all2. exact L. Qed.

Lemma discard_moves s : V s -> rest s = [] -> moves s [] (discard s).
Proof.
  intros Vs R. constructor; auto.
  - apply V_empty; try reflexivity; try apply Vs.
  - unfold under. rewrite R. reflexivity.
  - unfold lp. rewrite R. cbn. lia.
Qed.

Definition outcome (s : io) (want : nat) (ex : bool) (a : att) (s' : io) : Prop :=
  match a with
  | ABytes b => moves s b s' /\ (length b <= want)%nat /\ ((0 < want)%nat -> b = [] -> under s = []) /\
      (ex = true -> rest s' = [])
  | _ => moves s [] s' /\ (ex = true -> rest s' = [])
  end.

Lemma direct_read_ok want evs s a s' evs' : V s -> rest s = [] ->
  direct_read want evs s = Some (a, s', evs') -> outcome s want true a s'.
Proof.
  intros Vs R E. unfold direct_read in E.
  destruct evs as [|[|[n| | |] p] evs]; try discriminate; injection E as <- <- <-;
    try (cbn; split; [apply moves_refl; exact Vs|auto]).
  set (b := firstn (served want n) (skipn (off s) (content s))).
  assert (R' : rest (set_off s (off s + length b)) = []) by exact R.
  assert (LB : (off s + length b <= Nat.max (off s) (length (content s)))%nat)
    by (unfold b; rewrite firstn_length, skipn_length; lia).
  assert (U : under s = b ++ under (set_off s (off s + length b))).
  { unfold under. rewrite R, R'. cbn [app off content set_off]. rewrite <- skipn_add.
    set (m := skipn (off s) (content s)) in *. unfold b.
    transitivity (firstn (length (firstn (served want n) m)) m ++
                  skipn (length (firstn (served want n) m)) m).
    - symmetry. apply firstn_skipn.
    - f_equal. rewrite firstn_length. destruct (Nat.le_gt_cases (served want n) (length m)).
      + f_equal. lia.
      + rewrite !firstn_all2 by lia. reflexivity. }
  unfold outcome. split; [constructor; auto|].
  - apply V_empty; [exact R'|exact (v_pos s Vs)| |exact (v_len s Vs)|exact (v_stdin s Vs)].
    change (off (set_off s (off s + length b))) with (off s + length b)%nat. clearbody b.
    pose proof (v_off s Vs). pose proof (v_len s Vs). lia.
  - unfold lp. rewrite R, R'. cbn [off set_off length]. lia.
  - split; [unfold b; rewrite firstn_length; pose proof (served_le want n); lia|]. split; [|intros _; exact R'].
    intros W B. unfold under. rewrite R. cbn.
    destruct (skipn (off s) (content s)) as [|x m] eqn:Q; [reflexivity|exfalso].
    assert (L := f_equal (@length Z) B). unfold b in L. rewrite firstn_length in L.
    pose proof (served_pos want n W). cbn in L. lia.
Qed.

Lemma fill_buf_ok evs s a s' evs' : V s ->
  fill_buf evs s = Some (a, s', evs') ->
  match a with
  | ABytes b => b = rest s' /\ moves s [] s' /\ (b = [] -> under s = [])
  | _ => moves s [] s'
  end.
Proof.
  intros Vs E. unfold fill_buf in E. destruct (Nat.leb_spec (length (page s)) (pos s)) as [Q|Q].
  - pose proof (rest_nil_page s Vs Q) as R.
    destruct (direct_read capa evs s) as [[[a0 s0] e0]|] eqn:D; [|discriminate].
    apply direct_read_ok in D; [|exact Vs|exact R].
    destruct a0 as [b| | |]; injection E as <- <- <-; cbn in D; try apply D.
    destruct D as (M & L & Z0 & R0). pose proof (R0 eq_refl) as R'.
    split; [reflexivity|]. split.
    + destruct M as [m_V0 m_u m_l m_c m_k m_p m_w0].
      assert (RN : rest (set_page s0 b 0) = b) by reflexivity.
      assert (ON : off (set_page s0 b 0) = off s0) by reflexivity.
      assert (O' : off s0 = (off s + length b)%nat).
      { unfold lp in m_l. rewrite R, R' in m_l. cbn in m_l. pose proof (v_rest s0 m_V0). lia. }
      assert (LPN : lp (set_page s0 b 0) = off s).
      { unfold lp. rewrite RN, ON, O'. lia. }
      assert (U' : under (set_page s0 b 0) = under s).
      { rewrite m_u. unfold under. rewrite RN, R'. reflexivity. }
      constructor; auto.
      * constructor; try (cbn; apply m_V0).
        -- cbn. lia.
        -- rewrite RN, ON, O'. lia.
        -- rewrite LPN, U'. cbn [content set_page]. rewrite m_c.
           unfold under. rewrite R. reflexivity.
      * rewrite LPN. unfold lp. rewrite R. cbn. lia.
    + intros B. apply Z0; [exact capa_pos|exact B].
  - injection E as <- <- <-. split; [reflexivity|]. split; [apply moves_refl; exact Vs|].
    intros B. exfalso. assert (L := rest_length s). rewrite B in L. cbn in L. lia.
Qed.

Lemma buffered_read_ok want evs s a s' evs' : V s ->
  buffered_read want evs s = Some (a, s', evs') -> outcome s want false a s'.
Proof.
  intros Vs E. unfold buffered_read in E.
  destruct (Nat.eqb (pos s) (length (page s)) && Nat.leb capa want) eqn:Q.
  - apply andb_true_iff in Q as [Q1 Q2]. apply Nat.eqb_eq in Q1. apply Nat.leb_le in Q2.
    assert (R : rest s = []) by (apply rest_nil_page; [exact Vs|lia]).
    pose proof (discard_moves s Vs R) as M0.
    apply direct_read_ok in E; [|apply M0|reflexivity].
    destruct a as [b| | |]; cbn in E |- *.
    + destruct E as (M & L & Z0 & _). split; [exact (moves_trans _ _ _ _ _ M0 M)|].
      split; [exact L|]. split; [|discriminate].
      intros X Y. rewrite (m_under _ _ _ M0). cbn. apply Z0; assumption.
    + destruct E as [M _]. split; [exact (moves_trans _ _ _ _ _ M0 M)|discriminate].
    + destruct E as [M _]. split; [exact (moves_trans _ _ _ _ _ M0 M)|discriminate].
    + destruct E as [M _]. split; [exact (moves_trans _ _ _ _ _ M0 M)|discriminate].
  - destruct (fill_buf evs s) as [[[a0 s0] e0]|] eqn:F; [|discriminate].
    apply fill_buf_ok in F; [|exact Vs].
    destruct a0 as [avail| | |]; injection E as <- <- <-; cbn;
      try (split; [exact F|discriminate]).
    destruct F as (-> & M & Z0).
    set (n := Nat.min (length (rest s0)) want).
    assert (L : (n <= length (rest s0))%nat) by (unfold n; lia).
    pose proof (consume_moves n s0 (m_V _ _ _ M) L) as C.
    split; [exact (moves_trans _ _ _ _ _ M C)|]. split; [rewrite firstn_length; unfold n; lia|].
    split; [|discriminate].
    intros X Y. apply Z0. destruct (rest s0) as [|x r]; [reflexivity|exfalso].
    assert (LL := f_equal (@length Z) Y). rewrite firstn_length in LL. unfold n in LL. cbn [length] in LL. lia.
Qed.

Lemma attempt_ok ex want evs s a s' evs' : V s -> (ex = true -> rest s = []) ->
  attempt ex want evs s = Some (a, s', evs') -> outcome s want ex a s'.
Proof.
  destruct ex; cbn [attempt]; intros Vs R E.
  - eapply direct_read_ok; eauto.
  - eapply buffered_read_ok; eauto.
Qed.

Lemma outcome_after s s1 want ex a s' : moves s [] s1 -> outcome s1 want ex a s' -> outcome s want ex a s'.
Proof.
  intros M O. destruct a; cbn in *.
  - destruct O as (M1 & L & Z0 & R). split; [exact (moves_trans _ _ _ _ _ M M1)|].
    split; [exact L|]. split; [|exact R]. rewrite (m_under _ _ _ M). exact Z0.
  - destruct O as (M1 & R). split; [exact (moves_trans _ _ _ _ _ M M1)|exact R].
  - destruct O as (M1 & R). split; [exact (moves_trans _ _ _ _ _ M M1)|exact R].
  - destruct O as (M1 & R). split; [exact (moves_trans _ _ _ _ _ M M1)|exact R].
Qed.

Lemma read_step_ok fuel : forall ex want evs s a s' evs', V s -> (ex = true -> rest s = []) ->
  read_step fuel ex want evs s = Some (a, s', evs') -> outcome s want ex a s'.
Proof.
  induction fuel as [|f IH]; intros ex want evs s a s' evs' Vs R E; [discriminate|].
  cbn [read_step] in E. destruct (attempt ex want evs s) as [[[a0 s0] e0]|] eqn:A; [|discriminate].
  apply attempt_ok in A; [|exact Vs|exact R].
  destruct a0 as [b|[|]| |]; try (injection E as <- <- <-; exact A).
  destruct A as [M R0]. eapply outcome_after; [exact M|].
  eapply IH; [apply M|exact R0|exact E].
Qed.

Lemma prefix_firstn {A} (b u l : list A) n : l = b ++ u -> (length b <= n)%nat ->
  (length b = n \/ u = []) -> b = firstn n l.
Proof.
  intros -> L [X|X].
  - rewrite firstn_app, <- X, Nat.sub_diag, firstn_all. cbn. rewrite app_nil_r. reflexivity.
  - subst u. rewrite app_nil_r, firstn_all2 by lia. reflexivity.
Qed.

Lemma read_upto_ok fuel : forall ex len out evs s r out' s' evs', V s ->
  (ex = true -> rest s = [] \/ (len <= length out)%nat) ->
  read_upto fuel ex len out evs s = Some (r, out', s', evs') ->
  exists b, out' = out ++ b /\ moves s b s' /\
    (r = FOk -> b = firstn (len - length out) (under s)).
Proof.
  induction fuel as [|f IH]; intros ex len out evs s r out' s' evs' Vs R E; [discriminate|].
  cbn [read_upto] in E.
  destruct (Nat.leb_spec len (length out)) as [Q|Q].
  - injection E as <- <- <- <-. exists []. rewrite app_nil_r. split; [reflexivity|].
    split; [apply moves_refl; exact Vs|]. intros _. replace (len - length out)%nat with 0%nat by lia.
    reflexivity.
  - assert (R0 : ex = true -> rest s = []) by (intros X; destruct (R X); [assumption|lia]).
    destruct evs as [|[[|]|] evs1]; try discriminate.
    + injection E as <- <- <- <-. exists []. rewrite app_nil_r. split; [reflexivity|].
      split; [apply moves_refl; exact Vs|]. discriminate.
    + destruct (read_step (S f) ex (Nat.min (len - length out) chunk) evs1 s) as [[[a s1] e1]|] eqn:S1;
        [|discriminate].
      apply read_step_ok in S1; [|exact Vs|exact R0].
      assert (stop : forall x, fin_of a = x -> x <> FOk -> Some (x, out, s1, e1) = Some (r, out', s', evs') ->
        moves s [] s1 ->
        exists b, out' = out ++ b /\ moves s b s' /\
          (r = FOk -> b = firstn (len - length out) (under s))).
      { intros x _ X Y M. injection Y as <- <- <- <-. exists []. rewrite app_nil_r.
        split; [reflexivity|]. split; [exact M|]. intros; congruence. }
      destruct a as [b|p| |].
      * destruct S1 as (M & L & Z0 & R1).
        destruct b as [|x b].
        -- injection E as <- <- <- <-. exists []. rewrite app_nil_r. split; [reflexivity|].
           split; [exact M|]. intros _. rewrite Z0; [rewrite firstn_nil; reflexivity| |reflexivity].
           pose proof chunk_pos. lia.
        -- apply IH in E; [|apply M|intros X; left; apply R1; exact X].
           destruct E as (c & -> & M2 & F). exists ((x :: b) ++ c).
           split; [rewrite <- app_assoc; reflexivity|].
           split; [exact (moves_trans _ _ _ _ _ M M2)|].
           intros X. specialize (F X). rewrite (m_under _ _ _ M).
           rewrite app_length in F.
           rewrite firstn_app. rewrite firstn_all2 by lia. f_equal. rewrite F. f_equal. lia.
      * eapply stop; [reflexivity|discriminate|exact E|apply S1].
      * eapply stop; [reflexivity|discriminate|exact E|apply S1].
      * eapply stop; [reflexivity|discriminate|exact E|apply S1].
Qed.

Lemma read_all_ok fuel : forall out evs s r out' s' evs', V s ->
  read_all fuel out evs s = Some (r, out', s', evs') ->
  exists b, out' = out ++ b /\ moves s b s' /\ (r = FOk -> b = under s).
Proof.
  induction fuel as [|f IH]; intros out evs s r out' s' evs' Vs E; [discriminate|].
  cbn [read_all] in E.
  destruct evs as [|[[|]|] evs1]; try discriminate.
  - injection E as <- <- <- <-. exists []. rewrite app_nil_r. split; [reflexivity|].
    split; [apply moves_refl; exact Vs|]. discriminate.
  - destruct (read_step (S f) false chunk evs1 s) as [[[a s1] e1]|] eqn:S1; [|discriminate].
    apply read_step_ok in S1; [|exact Vs|discriminate].
    assert (stop : forall x, x <> FOk -> Some (x, out, s1, e1) = Some (r, out', s', evs') ->
      moves s [] s1 ->
      exists b, out' = out ++ b /\ moves s b s' /\ (r = FOk -> b = under s)).
    { intros x X Y M. injection Y as <- <- <- <-. exists []. rewrite app_nil_r.
      split; [reflexivity|]. split; [exact M|]. intros; congruence. }
    destruct a as [b|p| |].
    + destruct S1 as (M & L & Z0 & _). destruct b as [|x b].
      * injection E as <- <- <- <-. exists []. rewrite app_nil_r. split; [reflexivity|].
        split; [exact M|]. intros _. symmetry. apply Z0; [exact chunk_pos|reflexivity].
      * apply IH in E; [|apply M]. destruct E as (c & -> & M2 & F). exists ((x :: b) ++ c).
        split; [rewrite <- app_assoc; reflexivity|].
        split; [exact (moves_trans _ _ _ _ _ M M2)|].
        intros X. rewrite (m_under _ _ _ M), (F X). reflexivity.
    + eapply stop; [|exact E|apply S1]. discriminate.
    + eapply stop; [|exact E|apply S1]. discriminate.
    + eapply stop; [|exact E|apply S1]. discriminate.
Qed.

(** ** Lines *)

Lemma line_found l : forall i r, find_byte 10 l = Some i -> line (l ++ r) = firstn (S i) l.
Proof.
  induction l as [|x l IH]; intros i r E; [discriminate|]. cbn [find_byte] in E. cbn [line app].
  destruct (Z.eqb x 10).
  - injection E as <-. reflexivity.
  - destruct (find_byte 10 l) as [j|]; [|discriminate]. injection E as <-.
    rewrite (IH j r eq_refl). reflexivity.
Qed.
Lemma line_none l : forall r, find_byte 10 l = None -> line (l ++ r) = l ++ line r.
Proof.
  induction l as [|x l IH]; intros r E; [reflexivity|]. cbn [find_byte] in E. cbn [line app].
  destruct (Z.eqb x 10); [discriminate|]. destruct (find_byte 10 l); [discriminate|].
  rewrite IH by reflexivity. reflexivity.
Qed.
Lemma find_byte_lt d l : forall i, find_byte d l = Some i -> (i < length l)%nat.
Proof.
  induction l as [|x l IH]; intros i E; [discriminate|]. cbn in E. destruct (Z.eqb x d).
  - injection E as <-. cbn. lia.
  - destruct (find_byte d l) as [j|]; [|discriminate]. injection E as <-. specialize (IH j eq_refl). cbn. lia.
Qed.

Lemma read_until_ok fuel : forall out evs s r out' s' evs', V s ->
  read_until fuel 10 out evs s = Some (r, out', s', evs') ->
  exists b, out' = out ++ b /\ moves s b s' /\ (r = FOk -> b = line (under s)).
Proof.
  induction fuel as [|f IH]; intros out evs s r out' s' evs' Vs E; [discriminate|].
  cbn [read_until] in E.
  destruct evs as [|[[|]|] evs1]; try discriminate.
  - injection E as <- <- <- <-. exists []. rewrite app_nil_r. split; [reflexivity|].
    split; [apply moves_refl; exact Vs|]. discriminate.
  - destruct (fill_buf evs1 s) as [[[a s1] e1]|] eqn:S1; [|discriminate].
    apply fill_buf_ok in S1; [|exact Vs].
    assert (stop : forall x, x <> FOk -> Some (x, out, s1, e1) = Some (r, out', s', evs') ->
      moves s [] s1 ->
      exists b, out' = out ++ b /\ moves s b s' /\ (r = FOk -> b = line (under s))).
    { intros x X Y M. injection Y as <- <- <- <-. exists []. rewrite app_nil_r.
      split; [reflexivity|]. split; [exact M|]. intros; congruence. }
    destruct a as [avail|[|]| |].
    + destruct S1 as (-> & M & Z0).
      destruct (find_byte 10 (rest s1)) as [i|] eqn:F.
      * pose proof (find_byte_lt _ _ _ F) as LI.
        assert (E2 : Some (FOk, out ++ firstn (S i) (rest s1), consume (S i) s1, e1)
                     = Some (r, out', s', evs')) by (destruct (rest s1); exact E). clear E.
        injection E2 as <- <- <- <-. exists (firstn (S i) (rest s1)). split; [reflexivity|].
        pose proof (consume_moves (S i) s1 (m_V _ _ _ M) LI) as C.
        split; [exact (moves_trans _ _ _ _ _ M C)|]. intros _.
        rewrite (m_under _ _ _ M). cbn [app]. unfold under. symmetry. apply line_found. exact F.
      * destruct (rest s1) as [|x l] eqn:RS.
        -- injection E as <- <- <- <-. exists []. rewrite app_nil_r. split; [reflexivity|].
           split; [exact M|]. intros _. rewrite Z0 by reflexivity. reflexivity.
        -- rewrite <- RS in *.
           assert (LE : (length (rest s1) <= length (rest s1))%nat) by lia.
           pose proof (consume_moves _ s1 (m_V _ _ _ M) LE) as C. rewrite firstn_all in C.
           apply IH in E; [|apply C]. destruct E as (c & -> & M2 & G).
           exists (rest s1 ++ c). split; [rewrite app_assoc; reflexivity|].
           split; [exact (moves_trans _ _ _ _ _ M (moves_trans _ _ _ _ _ C M2))|].
           intros X. rewrite (G X), (m_under _ _ _ M). cbn [app].
           rewrite (m_under _ _ _ C). symmetry. apply line_none. exact F.
    + eapply stop; [|exact E|apply S1]. discriminate.
    + apply IH in E; [|apply S1]. destruct E as (c & -> & M2 & G). exists c. split; [reflexivity|].
      split; [exact (moves_trans _ _ _ _ _ S1 M2)|]. intros X. rewrite (G X), (m_under _ _ _ S1). reflexivity.
    + eapply stop; [|exact E|apply S1]. discriminate.
    + eapply stop; [|exact E|apply S1]. discriminate.
Qed.

(** ** Operations *)

Definition W (s : io) : Prop :=
  V s /\ (wpend s = [] \/
    (rest s = [] /\ (exists k, kind s = KFile k) /\ Z.of_nat (off s + length (wpend s)) < 2 ^ 63)).

Lemma flush_id s : wpend s = [] -> flush_w s = s.
Proof. intros E. unfold flush_w. rewrite E. destruct (kind s); reflexivity. Qed.

Lemma overwrite_length c k d : length (overwrite c k d) = Nat.max (length c) (k + length d).
Proof.
  unfold overwrite. rewrite !app_length, firstn_length, app_length, repeat_length, skipn_length. lia.
Qed.

Lemma flush_ok s : W s ->
  V (flush_w s) /\ wpend (flush_w s) = [] /\ kind (flush_w s) = kind s /\
  pushback (flush_w s) = pushback s /\ page (flush_w s) = page s /\ pos (flush_w s) = pos s.
Proof.
  intros [Vs [E|(R & (k & K) & L)]].
  - rewrite flush_id by exact E. auto 6.
  - destruct (wpend s) as [|x w] eqn:WP.
    + rewrite flush_id by exact WP. auto 6.
    + unfold flush_w. rewrite K, WP. cbn [wpend kind pushback page pos]. split; [|auto 6].
      apply V_empty; cbn [rest page pos off content kind pushback].
      * exact R.
      * apply Vs.
      * exact L.
      * rewrite overwrite_length. pose proof (v_len s Vs). lia.
      * discriminate.
Qed.

Definition After (b : list Z) (s s' : io) : Prop := W s' /\ consumed b s s'.

Lemma After_trans a s s1 b s2 : After a s s1 -> After b s1 s2 -> After (a ++ b) s s2.
Proof.
  intros [_ (A1 & A2 & A3 & A4)] [W2 (B1 & B2 & B3 & B4)]. split; [exact W2|].
  repeat split; try congruence.
  - rewrite A1, B1, app_assoc. reflexivity.
  - rewrite B2, A2, app_length. lia.
Qed.

Lemma flush_idem s : W s -> flush_w (flush_w s) = flush_w s.
Proof. intros H. apply flush_id. apply flush_ok. exact H. Qed.

Lemma After_flush b s s' : W s -> After b (flush_w s) s' -> After b s s'.
Proof.
  intros Ws [W' (A & B & C & D)]. split; [exact W'|].
  unfold consumed, stream, tell, file in *. rewrite (flush_idem s Ws) in *.
  repeat split; auto. rewrite D. apply flush_ok; exact Ws.
Qed.

Lemma W_settled s : V s -> wpend s = [] -> W s.
Proof. split; auto. Qed.
Lemma W_flush s : W s -> W (flush_w s).
Proof. intros H. apply W_settled; apply flush_ok; exact H. Qed.

Lemma After_refl s : W s -> After [] s s.
Proof. intros H. split; [exact H|]. repeat split; cbn; lia. Qed.

Lemma tell_settled s : V s -> wpend s = [] ->
  tell s = Z.of_nat (lp s) - Z.of_nat (length (pushback s)).
Proof.
  intros Vs E. unfold tell. rewrite flush_id by exact E. unfold lp. pose proof (v_rest s Vs). lia.
Qed.
Lemma stream_settled s : wpend s = [] -> stream s = pushback s ++ under s.
Proof. intros E. unfold stream. rewrite flush_id by exact E. reflexivity. Qed.

Lemma After_moves s b s' : V s -> wpend s = [] -> pushback s = [] -> moves s b s' -> After b s s'.
Proof.
  intros Vs E PB M. assert (E' : wpend s' = []) by (rewrite (m_w _ _ _ M); exact E).
  split; [apply W_settled; [apply M|exact E']|].
  unfold consumed. rewrite !stream_settled, !tell_settled by (try apply M; assumption).
  rewrite (m_pb _ _ _ M), PB. cbn [app length].
  split; [apply M|]. split; [rewrite (m_lp _ _ _ M); lia|].
  unfold file. rewrite !flush_id by assumption. split; apply M.
Qed.

(** With nothing consumed, the pushed back bytes do not matter. *)
Lemma After_still s s' : V s -> wpend s = [] -> moves s [] s' -> After [] s s'.
Proof.
  intros Vs E M. assert (E' : wpend s' = []) by (rewrite (m_w _ _ _ M); exact E).
  split; [apply W_settled; [apply M|exact E']|].
  unfold consumed. rewrite !stream_settled, !tell_settled by (try apply M; assumption).
  rewrite (m_pb _ _ _ M), (m_lp _ _ _ M), (m_under _ _ _ M). cbn [app length].
  split; [reflexivity|]. split; [lia|].
  unfold file. rewrite !flush_id by assumption. split; apply M.
Qed.

Lemma flush_set_pushback s q : flush_w (set_pushback s q) = set_pushback (flush_w s) q.
Proof. unfold flush_w. cbn. destruct (kind s), (wpend s); reflexivity. Qed.

Lemma V_set_pushback s q : V s -> (kind s = KStdin -> q = []) -> V (set_pushback s q).
Proof. intros [] K. constructor; auto. Qed.
Lemma W_set_pushback s q : W s -> (kind s = KStdin -> q = []) -> W (set_pushback s q).
Proof. intros [Vs D] K. split; [apply V_set_pushback; assumption|exact D]. Qed.

Lemma stream_set_pushback s q : W s -> stream s = pushback s ++ stream (set_pushback s []) /\
  stream (set_pushback s q) = q ++ stream (set_pushback s []).
Proof.
  intros Ws. unfold stream. rewrite !flush_set_pushback. cbn [pushback set_pushback off content rest page pos].
  destruct (flush_ok s Ws) as (_ & _ & _ & P & _). rewrite P. split; reflexivity.
Qed.
Lemma tell_set_pushback s q : W s ->
  tell (set_pushback s q) = tell s + Z.of_nat (length (pushback s)) - Z.of_nat (length q).
Proof.
  intros Ws. unfold tell. rewrite flush_set_pushback. cbn [off pushback set_pushback].
  change (rest (set_pushback (flush_w s) q)) with (rest (flush_w s)).
  destruct (flush_ok s Ws) as (_ & _ & _ & P & _). rewrite P. lia.
Qed.

Lemma After_take s p q : W s -> pushback s = p ++ q -> After p s (set_pushback s q).
Proof.
  intros Ws E. split.
  - apply W_set_pushback; [exact Ws|]. intros K.
    rewrite (v_stdin s (proj1 Ws) K) in E. symmetry in E. apply app_eq_nil in E. apply E.
  - destruct (stream_set_pushback s q Ws) as [A B].
    split; [rewrite A, B, E, <- app_assoc; reflexivity|].
    split; [rewrite tell_set_pushback, E, app_length by exact Ws; lia|].
    split; [|reflexivity]. unfold file. rewrite flush_set_pushback. reflexivity.
Qed.

Lemma After_unread b s s' : After b s s' -> has_cell s' = true -> After [] s (unread b s').
Proof.
  intros [W' (A & B & C & D)] H. unfold unread. rewrite H. split.
  - apply W_set_pushback; [exact W'|]. unfold has_cell in H. intros K. rewrite K in H. discriminate.
  - destruct (stream_set_pushback s' (b ++ pushback s') W') as [E F].
    split; [cbn [app]; rewrite F, A, E, app_assoc; reflexivity|].
    split; [rewrite tell_set_pushback, app_length by exact W'; cbn [length]; lia|].
    split; [|exact D]. unfold file. rewrite flush_set_pushback. exact C.
Qed.
Lemma cell_of s : kind s <> KStdin -> has_cell s = true.
Proof. unfold has_cell. destruct (kind s); congruence. Qed.

(** What every reading operation does: [c] was consumed ... *)
Definition good (s : io) (r : result) (s' : io) (what : list Z -> Prop) : Prop :=
  exists c, After c s s' /\
    match r with
    | Bytes b => c = b /\ what b
    | Sig | Again => kind s <> KStdin -> c = []
    | Error => True
    end.

Lemma good_flush s r s' what : W s -> good (flush_w s) r s' what -> good s r s' what.
Proof.
  intros Ws (c & A & B). exists c. split; [apply After_flush; assumption|].
  destruct (flush_ok s Ws) as (_ & _ & K & _). rewrite K in B. exact B.
Qed.

(** A loop started on a settled state with nothing pushed back. *)
Lemma conclude_ok s f b s1 evs r s' evs' (what : list Z -> Prop) :
  V s -> wpend s = [] -> pushback s = [] -> moves s b s1 -> (f = FOk -> what b) ->
  conclude (f, b, s1, evs) = (r, s', evs') ->
  good s r s' what /\ (forall x, r = Bytes x -> moves s x s').
Proof.
  intros Vs E PB M F C. pose proof (After_moves s b s1 Vs E PB M) as A.
  unfold conclude in C. destruct f; injection C as <- <- <-.
  - split.
    + exists b. auto.
    + intros x X. injection X as <-. exact M.
  - split; [|discriminate]. destruct (has_cell s1) eqn:H.
    + exists []. split; [apply After_unread; assumption|auto].
    + exists b. unfold unread. rewrite H. split; [exact A|]. intros N. exfalso.
      rewrite (cell_of s1) in H; [discriminate|]. rewrite (m_kind _ _ _ M). exact N.
  - split; [|discriminate]. destruct (has_cell s1) eqn:H.
    + exists []. split; [apply After_unread; assumption|auto].
    + exists b. unfold unread. rewrite H. split; [exact A|]. intros N. exfalso.
      rewrite (cell_of s1) in H; [discriminate|]. rewrite (m_kind _ _ _ M). exact N.
  - split; [|discriminate]. exists b. auto.
Qed.

Definition sized (len : option nat) (str b : list Z) : Prop :=
  match len with Some n => b = firstn n str | None => b = str end.

Lemma read_underlying_ok fuel len ex evs s r s' evs' : W s -> pushback s = [] ->
  read_underlying fuel len ex evs s = Some (r, s', evs') ->
  good s r s' (sized len (stream s)) /\ (forall x, r = Bytes x -> moves (flush_w s) x s').
Proof.
  intros Ws PB E. unfold read_underlying in E.
  destruct (flush_ok s Ws) as (Vt & Et & Kt & Pt & _ & _).
  assert (ST : stream s = under (flush_w s)).
  { unfold stream. rewrite Pt, PB. reflexivity. }
  set (t := flush_w s) in *. rewrite PB in Pt.
  match type of E with option_map _ ?x = _ => destruct x as [[[[f b] s1] e1]|] eqn:Q; [|discriminate] end.
  cbn [option_map] in E.
  assert (X : moves t b s1 /\ (f = FOk -> sized len (stream s) b)).
  { destruct len as [n|].
    - assert (NB : read_upto fuel false n [] evs t = Some (f, b, s1, e1) ->
        moves t b s1 /\ (f = FOk -> sized (Some n) (stream s) b)).
      { intros Q'. apply read_upto_ok in Q'; [|exact Vt|discriminate].
        destruct Q' as (c & -> & M & G). split; [exact M|]. intros F. cbn.
        rewrite (G F), ST, Nat.sub_0_r. reflexivity. }
      destruct (kind t) as [k| |] eqn:KT; [destruct ex|..]; try (apply NB; exact Q).
      set (avail := Nat.min (length (rest t)) n) in *.
      assert (LA : (avail <= length (rest t))%nat) by (unfold avail; lia).
      pose proof (consume_moves avail t Vt LA) as C.
      assert (LF : length (firstn avail (rest t)) = avail) by (rewrite firstn_length; lia).
      apply read_upto_ok in Q; [|apply C|].
      + destruct Q as (c & -> & M & G). split; [exact (moves_trans _ _ _ _ _ C M)|].
        intros F. cbn. rewrite ST, (m_under _ _ _ C), (G F), firstn_app, LF.
        rewrite (firstn_all2 (n := n)) by (rewrite LF; unfold avail; lia). reflexivity.
      + intros _. destruct (Nat.le_gt_cases (length (rest t)) n) as [L|L].
        * left. rewrite rest_consume by apply Vt. unfold avail. rewrite Nat.min_l by lia. apply skipn_all.
        * right. rewrite LF. unfold avail. lia.
    - apply read_all_ok in Q; [|exact Vt]. destruct Q as (c & -> & M & G). split; [exact M|].
      intros F. cbn. rewrite ST. apply G. exact F. }
  destruct X as [M F].
  assert (E2 : conclude (f, b, s1, e1) = (r, s', evs')) by (injection E as E; exact E).
  destruct (conclude_ok t f b s1 e1 r s' evs' (sized len (stream s)) Vt Et Pt M F E2) as [G1 G2].
  split; [apply good_flush; [exact Ws|exact G1]|exact G2].
Qed.

Lemma read_impl_ok fuel len ex evs s r s' evs' : W s ->
  read_impl fuel len ex evs s = Some (r, s', evs') -> good s r s' (sized len (stream s)).
Proof.
  intros Ws E. unfold read_impl in E.
  destruct (pushback s) as [|x pb] eqn:PB.
  - apply read_underlying_ok in E; [apply E|exact Ws|exact PB].
  - rewrite <- PB in E.
    assert (HC : kind s <> KStdin) by (intros K; rewrite (v_stdin s (proj1 Ws) K) in PB; discriminate).
    assert (MORE : forall len', read_more fuel (pushback s) len' ex evs (set_pushback s []) = Some (r, s', evs') ->
      (forall b, sized len' (stream (set_pushback s [])) b -> sized len (stream s) (pushback s ++ b)) ->
      good s r s' (sized len (stream s))).
    { intros len' E' SZ. unfold read_more in E'.
      pose proof (After_take s (pushback s) [] Ws (eq_sym (app_nil_r _))) as T.
      destruct (read_underlying fuel len' ex evs (set_pushback s [])) as [[[r1 s1] e1]|] eqn:U; [|discriminate].
      apply read_underlying_ok in U; [|apply T|reflexivity]. destruct U as [(c & A & B) _].
      pose proof (After_trans _ _ _ _ _ T A) as TA.
      destruct r1; injection E' as <- <- <-.
      - destruct B as [-> B]. exists (pushback s ++ b). split; [exact TA|]. split; [reflexivity|]. apply SZ. exact B.
      - rewrite (B HC) in *. rewrite app_nil_r in TA. exists [].
        split; [apply After_unread; [exact TA|]|auto]. apply cell_of. destruct A as [_ (_ & _ & _ & K)].
        rewrite K. exact HC.
      - rewrite (B HC) in *. rewrite app_nil_r in TA. exists [].
        split; [apply After_unread; [exact TA|]|auto]. apply cell_of. destruct A as [_ (_ & _ & _ & K)].
        rewrite K. exact HC.
      - exists (pushback s ++ c). auto. }
    destruct (stream_set_pushback s [] Ws) as [S1 _].
    destruct len as [n|].
    + destruct (Nat.leb_spec n (length (pushback s))) as [L|L].
      * injection E as <- <- <-. exists (firstn n (pushback s)).
        split; [apply After_take; [exact Ws|symmetry; apply firstn_skipn]|]. split; [reflexivity|].
        cbn. rewrite S1, firstn_app. replace (n - length (pushback s))%nat with 0%nat by lia.
        cbn. rewrite app_nil_r. reflexivity.
      * apply (MORE (Some (n - length (pushback s))%nat)); [exact E|].
        intros b B. cbn in B |- *. rewrite S1, firstn_app, B, (firstn_all2 (n := n)) by lia. reflexivity.
    + apply (MORE None); [exact E|]. intros b B. cbn in B |- *. rewrite S1, B. reflexivity.
Qed.

(** ** Seeking *)

Lemma lseek_file w o s s' : lseek w o s = Some s' ->
  kind s = KFile true /\ exists t, 0 <= t < 2 ^ 63 /\ s' = set_off s (Z.to_nat t) /\
  t = match w with
      | Set_ => o | Cur => Z.of_nat (off s) + o | End_ => Z.of_nat (length (content s)) + o
      end.
Proof.
  unfold lseek. destruct (kind s) as [[|]| |]; try discriminate. intros E. split; [reflexivity|].
  match type of E with (if ?c then _ else _) = _ => destruct c eqn:Q; [|discriminate] end.
  apply andb_true_iff in Q as [Q1 Q2]. apply Z.leb_le in Q1. apply Z.ltb_lt in Q2.
  eexists; split; [split; [exact Q1|exact Q2]|]. split; [congruence|reflexivity].
Qed.
Lemma lseek_goes w o s t : kind s = KFile true -> 0 <= t < 2 ^ 63 ->
  t = match w with
      | Set_ => o | Cur => Z.of_nat (off s) + o | End_ => Z.of_nat (length (content s)) + o
      end -> lseek w o s = Some (set_off s (Z.to_nat t)).
Proof.
  intros K [L1 L2] ->. unfold lseek. rewrite K. apply Z.leb_le in L1. apply Z.ltb_lt in L2.
  rewrite L1, L2. reflexivity.
Qed.

(** The descriptor at [n], nothing buffered. *)
Definition moved (s : io) (n : nat) : io := discard (set_off s n).
Lemma moved_V s n : V s -> Z.of_nat n < 2 ^ 63 -> V (moved s n).
Proof.
  intros Vs L. apply V_empty; try reflexivity; try apply Vs. exact L.
Qed.

Lemma reader_seek_cur s o : V s ->
  let t := Z.of_nat (lp s) + o in
  reader_seek Cur o s =
    if andb (Z.leb 0 t) (Z.ltb t (2 ^ 63)) then
      match kind s with KFile true => (true, moved s (Z.to_nat t)) | _ => (false, s) end
    else
      if Z.leb i64_min (o - Z.of_nat (length (rest s))) then (false, s)
      else match kind s with KFile true => (false, moved s (lp s)) | _ => (false, s) end.
Proof.
  intros Vs. pose proof (v_rest s Vs) as LR. pose proof (v_off s Vs) as LO. cbn zeta.
  unfold reader_seek. set (r := Z.of_nat (length (rest s))).
  assert (T : Z.of_nat (off s) + (o - r) = Z.of_nat (lp s) + o) by (unfold lp, r; lia).
  assert (LZ : Z.of_nat (lp s) < 2 ^ 63) by (unfold lp; lia).
  destruct (Z.leb_spec i64_min (o - r)) as [Q|Q].
  - unfold lseek. cbn zeta. rewrite T.
    destruct (kind s) as [[|]| |]; destruct (_ && _); reflexivity.
  - assert (NEG : Z.of_nat (lp s) + o < 0).
    { unfold i64_min in Q. unfold lp. subst r. lia. }
    replace (Z.leb 0 (Z.of_nat (lp s) + o)) with false by (symmetry; apply Z.leb_gt; exact NEG).
    cbn [andb]. unfold lseek at 1. cbn zeta.
    assert (T2 : Z.of_nat (off s) + - r = Z.of_nat (lp s)) by (unfold lp, r; lia).
    rewrite T2.
    destruct (kind s) as [[|]| |] eqn:K; try reflexivity.
    replace (Z.leb 0 (Z.of_nat (lp s))) with true by (symmetry; apply Z.leb_le; lia).
    replace (Z.ltb (Z.of_nat (lp s)) (2 ^ 63)) with true by (symmetry; apply Z.ltb_lt; exact LZ).
    cbn [andb]. rewrite Nat2Z.id. unfold lseek. cbn [kind discard set_page set_off off]. rewrite K.
    replace (Z.leb 0 (Z.of_nat (lp s) + o)) with false by (symmetry; apply Z.leb_gt; exact NEG).
    reflexivity.
Qed.

Lemma moved_lp s : V s -> moves s [] (moved s (lp s)).
Proof.
  intros Vs. pose proof (v_off s Vs). pose proof (v_rest s Vs).
  constructor; try reflexivity.
  - apply moved_V; [exact Vs|]. unfold lp. lia.
  - cbn [app]. rewrite <- (v_slice s Vs). reflexivity.
  - unfold lp at 1, moved. cbn. lia.
Qed.

Lemma reader_seek_here s : V s -> moves s [] (snd (reader_seek Cur 0 s)) /\
  (kind s = KFile true -> rest (snd (reader_seek Cur 0 s)) = [] /\
     fst (reader_seek Cur 0 s) = true /\
     off (snd (reader_seek Cur 0 s)) = lp s) /\
  (kind s <> KFile true -> snd (reader_seek Cur 0 s) = s /\ fst (reader_seek Cur 0 s) = false).
Proof.
  intros Vs. pose proof (v_off s Vs) as LO. rewrite (reader_seek_cur s 0 Vs). rewrite Z.add_0_r.
  assert (LZ : Z.of_nat (lp s) < 2 ^ 63) by (unfold lp; lia).
  replace (Z.leb 0 (Z.of_nat (lp s))) with true by (symmetry; apply Z.leb_le; lia).
  replace (Z.ltb (Z.of_nat (lp s)) (2 ^ 63)) with true by (symmetry; apply Z.ltb_lt; exact LZ).
  cbn [andb]. rewrite Nat2Z.id.
  destruct (kind s) as [[|]| |]; cbn [fst snd];
    (split; [first [apply moved_lp; exact Vs|apply moves_refl; exact Vs]|]);
    (split; [first [discriminate|auto]|first [congruence|auto]]).
Qed.

(** With nothing pushed back, what is to come is the file from the position on. *)
Lemma stream_file s : W s -> pushback s = [] ->
  0 <= tell s /\ stream s = skipn (Z.to_nat (tell s)) (file s).
Proof.
  intros Ws PB. destruct (flush_ok s Ws) as (Vt & Et & _ & Pt & _).
  unfold stream, tell, file. rewrite Pt, PB. set (t := flush_w s) in *. cbn [app length].
  pose proof (v_rest t Vt). split; [lia|].
  change (rest t ++ skipn (off t) (content t)) with (under t). rewrite <- (v_slice t Vt).
  unfold lp. f_equal. lia.
Qed.

Lemma at_moved t n : wpend t = [] -> pushback t = [] ->
  stream (moved t n) = skipn n (content t) /\ tell (moved t n) = Z.of_nat n /\ file (moved t n) = content t.
Proof.
  intros E PB. unfold stream, tell, file. rewrite flush_id by exact E. cbn. rewrite PB.
  repeat split. cbn. lia.
Qed.

Definition seek_spec (w : whence) (o : Z) (s : io) (ok : bool) (s' : io) : Prop :=
  W s' /\ file s' = file s /\ kind s' = kind s /\ pushback s' = [] /\
  let t := target w o s in
  if ok then 0 <= t < 2 ^ 63 /\ tell s' = t /\ stream s' = skipn (Z.to_nat t) (file s)
  else (kind s = KFile true -> ~ 0 <= t < 2 ^ 63) /\ tell s' = tell s /\ stream s' = stream s.

Lemma seek_ok w o s ok s' : W s -> pushback s = [] -> seek w o s = (ok, s') -> seek_spec w o s ok s'.
Proof.
  intros Ws PB E. unfold seek in E.
  destruct (flush_ok s Ws) as (Vt & Et & Kt & Pt & _). rewrite PB in Pt.
  assert (BAD : kind s <> KFile true -> (ok, s') = (false, flush_w s) -> seek_spec w o s ok s').
  { intros N X. injection X as -> ->. unfold seek_spec, file, stream, tell.
    rewrite (flush_idem s Ws). split; [apply W_flush; exact Ws|]. split; [reflexivity|].
    split; [exact Kt|]. split; [exact Pt|]. cbn zeta. split; [congruence|auto]. }
  assert (GOOD : forall n, kind s = KFile true -> target w o s = Z.of_nat n -> Z.of_nat n < 2 ^ 63 ->
    (ok, s') = (true, moved (flush_w s) n) -> seek_spec w o s ok s').
  { intros n K T L X. injection X as -> ->. unfold seek_spec.
    destruct (at_moved (flush_w s) n Et Pt) as (A & B & C).
    split; [apply W_settled; [apply moved_V; [exact Vt|exact L]|exact Et]|].
    split; [exact C|]. split; [cbn; exact Kt|]. split; [exact Pt|]. cbn zeta. rewrite T.
    split; [lia|]. split; [exact B|]. rewrite A, Nat2Z.id. reflexivity. }
  assert (STAY : forall t', kind s = KFile true -> ~ 0 <= target w o s < 2 ^ 63 ->
    moves (flush_w s) [] t' -> (ok, s') = (false, t') -> seek_spec w o s ok s').
  { intros t' K N M X. injection X as -> ->.
    pose proof (After_flush [] s t' Ws (After_still (flush_w s) t' Vt Et M)) as [W' (A & B & C & D)].
    unfold seek_spec. split; [exact W'|]. split; [exact C|]. split; [exact D|].
    split; [rewrite (m_pb _ _ _ M); exact Pt|]. cbn zeta. split; [auto|].
    split; [rewrite B; cbn; lia|]. symmetry. exact A. }
  destruct (kind s) as [k| |] eqn:K.
  2,3: apply BAD; [congruence|]; rewrite <- E; f_equal; symmetry; unfold flush_w; rewrite K; reflexivity.
  set (t := flush_w s) in *.
  assert (TELL : tell s = Z.of_nat (lp t)).
  { unfold tell. fold t. rewrite Pt. unfold lp. pose proof (v_rest t Vt). cbn [length]. lia. }
  destruct w.
  - unfold reader_seek in E. unfold lseek in E. rewrite Kt in E. cbn zeta in E.
    destruct k; [|apply BAD; [discriminate|symmetry; exact E]].
    destruct (Z.leb 0 o && Z.ltb o (2 ^ 63)) eqn:Q.
    + apply andb_true_iff in Q as [Q1 Q2]. apply Z.leb_le in Q1. apply Z.ltb_lt in Q2.
      apply (GOOD (Z.to_nat o)); [reflexivity|cbn [target]; lia|lia|symmetry; exact E].
    + apply (STAY t); [reflexivity| |apply moves_refl; exact Vt|symmetry; exact E].
      cbn [target]. intros [A B]. apply Z.leb_le in A. apply Z.ltb_lt in B. rewrite A, B in Q. discriminate.
  - rewrite (reader_seek_cur t o Vt) in E. cbn zeta in E. rewrite Kt in E.
    assert (TG : target Cur o s = Z.of_nat (lp t) + o) by (cbn; rewrite TELL; reflexivity).
    destruct (Z.leb 0 (Z.of_nat (lp t) + o) && Z.ltb (Z.of_nat (lp t) + o) (2 ^ 63)) eqn:Q.
    + destruct k; [|apply BAD; [discriminate|symmetry; exact E]].
      apply andb_true_iff in Q as [Q1 Q2]. apply Z.leb_le in Q1. apply Z.ltb_lt in Q2.
      apply (GOOD (Z.to_nat (Z.of_nat (lp t) + o))); [reflexivity|rewrite TG; lia|lia|symmetry; exact E].
    + assert (NR : ~ 0 <= target Cur o s < 2 ^ 63).
      { rewrite TG. intros [A B]. apply Z.leb_le in A. apply Z.ltb_lt in B. rewrite A, B in Q. discriminate. }
      destruct (Z.leb i64_min _).
      * destruct k; [|apply BAD; [discriminate|symmetry; exact E]].
        apply (STAY t); [reflexivity|exact NR|apply moves_refl; exact Vt|symmetry; exact E].
      * destruct k; [|apply BAD; [discriminate|symmetry; exact E]].
        apply (STAY (moved t (lp t))); [reflexivity|exact NR|apply moved_lp; exact Vt|symmetry; exact E].
  - unfold reader_seek in E. unfold lseek in E. rewrite Kt in E. cbn zeta in E.
    destruct k; [|apply BAD; [discriminate|symmetry; exact E]].
    assert (TG : target End_ o s = Z.of_nat (length (content t)) + o) by reflexivity.
    rewrite <- TG in E.
    destruct (Z.leb 0 (target End_ o s) && Z.ltb (target End_ o s) (2 ^ 63)) eqn:Q.
    + apply andb_true_iff in Q as [Q1 Q2]. apply Z.leb_le in Q1. apply Z.ltb_lt in Q2.
      apply (GOOD (Z.to_nat (target End_ o s))); [reflexivity|lia|lia|symmetry; exact E].
    + apply (STAY t); [reflexivity| |apply moves_refl; exact Vt|symmetry; exact E].
      intros [A B]. apply Z.leb_le in A. apply Z.ltb_lt in B. rewrite A, B in Q. discriminate.
Qed.

(** ** The other readers *)

Definition some_of (n : nat) (str b : list Z) : Prop :=
  (length b <= n)%nat /\ ((0 < n)%nat -> b = [] -> str = []).

Lemma firstn_nil_inv {A} n (l : list A) : (length (firstn n l) < n)%nat -> skipn n l = [] /\ firstn n l = l.
Proof.
  rewrite firstn_length. intros L. split; [apply skipn_all2; lia|apply firstn_all2; lia].
Qed.

Lemma sysread_ok fuel n evs s r s' evs' : W s -> (kind s = KFile true \/ rest s = []) ->
  sysread fuel n evs s = Some (r, s', evs') -> good s r s' (some_of n (stream s)).
Proof.
  intros Ws PL E. unfold sysread in E.
  destruct (flush_ok s Ws) as (Vt & Et & Kt & Pt & Pg & Ps).
  apply good_flush; [exact Ws|].
  assert (ST : stream s = stream (flush_w s)) by (unfold stream; rewrite (flush_idem s Ws); reflexivity).
  assert (PL' : kind (flush_w s) = KFile true \/ rest (flush_w s) = [])
    by (unfold rest; rewrite Kt, Pg, Ps; exact PL).
  rewrite ST. pose proof (W_flush s Ws) as Wt. set (t := flush_w s) in *. clear PL ST.
  pose proof (After_take t (firstn n (pushback t)) (skipn n (pushback t)) Wt
    (eq_sym (firstn_skipn _ _))) as T.
  set (out := firstn n (pushback t)) in *. set (t2 := set_pushback t (skipn n (pushback t))) in *.
  destruct (Nat.leb_spec n (length out)) as [L|L].
  - injection E as <- <- <-. exists out. split; [exact T|]. split; [reflexivity|].
    split; [unfold out; rewrite firstn_length; lia|].
    intros N X. rewrite X in L. cbn in L. lia.
  - destruct (firstn_nil_inv n (pushback t) L) as [SK FI].
    assert (V2 : V t2) by apply T. assert (E2 : wpend t2 = []) by exact Et.
    assert (P2 : pushback t2 = []) by exact SK.
    set (t3 := match kind t2 with KFile _ => snd (reader_seek Cur 0 t2) | _ => t2 end) in *.
    assert (M3 : moves t2 [] t3 /\ rest t3 = []).
    { unfold t3. destruct (reader_seek_here t2 V2) as (A & B & C).
      destruct (kind t2) as [[|]| |] eqn:K.
      - split; [exact A|apply B; reflexivity].
      - destruct C as [C _]; [congruence|]. rewrite C. split; [apply moves_refl; exact V2|].
        destruct PL' as [X|X]; [change (kind t) with (kind t2) in X; congruence|exact X].
      - split; [apply moves_refl; exact V2|].
        destruct PL' as [X|X]; [change (kind t) with (kind t2) in X; congruence|exact X].
      - split; [apply moves_refl; exact V2|].
        destruct PL' as [X|X]; [change (kind t) with (kind t2) in X; congruence|exact X]. }
    destruct M3 as [M3 R3]. clearbody t3.
    destruct (read_step fuel true (n - length out) evs t3) as [[[a s1] e1]|] eqn:RS; [|discriminate].
    apply read_step_ok in RS; [|apply M3|intros _; exact R3].
    apply (outcome_after t2 t3 _ _ _ _ M3) in RS.
    assert (HALT : (kind t <> KStdin -> has_cell s1 = true) -> moves t2 [] s1 ->
      exists c, After c t (unread out s1) /\ (kind t <> KStdin -> c = [])).
    { intros H M. pose proof (After_moves t2 [] s1 V2 E2 P2 M) as A.
      pose proof (After_trans _ _ _ _ _ T A) as TA. rewrite app_nil_r in TA.
      destruct (has_cell s1) eqn:HC.
      - exists []. split; [apply After_unread; assumption|auto].
      - exists out. unfold unread. rewrite HC. split; [exact TA|]. intros N. specialize (H N). discriminate. }
    assert (HK : forall b, moves t2 b s1 -> kind t <> KStdin -> has_cell s1 = true).
    { intros b M N. apply cell_of. rewrite (m_kind _ _ _ M). exact N. }
    destruct a as [b|p| |]; injection E as <- <- <-.
    + destruct RS as (M & LB & Z0 & _).
      exists (out ++ b). split; [exact (After_trans _ _ _ _ _ T (After_moves t2 b s1 V2 E2 P2 M))|].
      split; [reflexivity|]. split; [rewrite app_length; lia|].
      intros N X. apply app_eq_nil in X as [X1 X2]. subst b.
      destruct T as [_ (T1 & _)]. rewrite T1, X1. cbn [app]. rewrite (stream_settled t2 E2), P2. cbn [app].
      apply Z0; [lia|reflexivity].
    + destruct (HALT (HK [] (proj1 RS)) (proj1 RS)) as (c & A & B). exists c. auto.
    + destruct (HALT (HK [] (proj1 RS)) (proj1 RS)) as (c & A & B). exists c. auto.
    + exists (out ++ []). split; [exact (After_trans _ _ _ _ _ T (After_moves t2 [] s1 V2 E2 P2 (proj1 RS)))|exact I].
Qed.

Lemma read_nonblock_ok n evs s r s' evs' : W s -> (kind s = KFile true \/ rest s = []) ->
  read_nonblock n evs s = Some (r, s', evs') -> good s r s' (some_of n (stream s)).
Proof.
  intros Ws PL E. unfold read_nonblock in E.
  destruct (flush_ok s Ws) as (Vt & Et & Kt & Pt & Pg & Ps).
  apply good_flush; [exact Ws|].
  assert (ST : stream s = stream (flush_w s)) by (unfold stream; rewrite (flush_idem s Ws); reflexivity).
  assert (PL' : kind (flush_w s) = KFile true \/ rest (flush_w s) = [])
    by (unfold rest; rewrite Kt, Pg, Ps; exact PL).
  rewrite ST. pose proof (W_flush s Ws) as Wt. set (t := flush_w s) in *. clear PL ST.
  destruct (pushback t) as [|x pb] eqn:P2.
  - set (t3 := match kind t with KFile _ => snd (reader_seek Cur 0 t) | _ => t end) in *.
    assert (M3 : moves t [] t3 /\ rest t3 = []).
    { unfold t3. destruct (reader_seek_here t Vt) as (A & B & C).
      destruct (kind t) as [[|]| |] eqn:K.
      - split; [exact A|apply B; reflexivity].
      - destruct C as [C _]; [congruence|]. rewrite C. split; [apply moves_refl; exact Vt|].
        destruct PL' as [X|X]; [congruence|exact X].
      - split; [apply moves_refl; exact Vt|]. destruct PL' as [X|X]; [congruence|exact X].
      - split; [apply moves_refl; exact Vt|]. destruct PL' as [X|X]; [congruence|exact X]. }
    destruct M3 as [M3 R3]. clearbody t3.
    destruct (direct_read n evs t3) as [[[a s1] e1]|] eqn:RS; [|discriminate].
    apply direct_read_ok in RS; [|apply M3|exact R3].
    apply (outcome_after t t3 _ _ _ _ M3) in RS.
    destruct a as [b|p| |]; injection E as <- <- <-.
    + destruct RS as (M & LB & Z0 & _).
      exists b. split; [exact (After_moves t b s1 Vt Et P2 M)|]. split; [reflexivity|]. split; [exact LB|].
      intros N X. rewrite (stream_settled t Et), P2. cbn [app]. apply Z0; assumption.
    + exists []. split; [exact (After_moves t [] s1 Vt Et P2 (proj1 RS))|exact I].
    + exists []. split; [exact (After_moves t [] s1 Vt Et P2 (proj1 RS))|auto].
    + exists []. split; [exact (After_moves t [] s1 Vt Et P2 (proj1 RS))|exact I].
  - rewrite <- P2 in E.
    assert (E' : Some (Bytes (firstn n (pushback t)), set_pushback t (skipn n (pushback t)), evs) = Some (r, s', evs'))
      by (rewrite P2 in E |- *; exact E). clear E.
    injection E' as <- <- <-. exists (firstn n (pushback t)).
    split; [apply After_take; [exact Wt|symmetry; apply firstn_skipn]|]. split; [reflexivity|].
    split; [rewrite firstn_length; lia|]. intros N X. exfalso. rewrite P2 in X. destruct n; [lia|discriminate].
Qed.

Lemma fill_retry_ok fuel : forall evs s a s' evs', V s -> fill_retry fuel evs s = Some (a, s', evs') ->
  match a with
  | ABytes b => b = rest s' /\ moves s [] s' /\ (b = [] -> under s = [])
  | _ => moves s [] s'
  end.
Proof.
  induction fuel as [|f IH]; intros evs s a s' evs' Vs E; [discriminate|]. cbn [fill_retry] in E.
  destruct (fill_buf evs s) as [[[a0 s0] e0]|] eqn:F; [|discriminate].
  apply fill_buf_ok in F; [|exact Vs].
  destruct a0 as [b|[|]| |]; try (injection E as <- <- <-; exact F).
  apply IH in E; [|apply F]. destruct a as [b|p| |].
  - destruct E as (A & B & C). split; [exact A|]. split; [exact (moves_trans _ _ _ _ _ F B)|].
    rewrite (m_under _ _ _ F). exact C.
  - exact (moves_trans _ _ _ _ _ F E).
  - exact (moves_trans _ _ _ _ _ F E).
  - exact (moves_trans _ _ _ _ _ F E).
Qed.

Lemma readpartial_ok fuel n evs s r s' evs' : W s ->
  readpartial fuel n evs s = Some (r, s', evs') -> good s r s' (some_of n (stream s)).
Proof.
  intros Ws E. unfold readpartial in E.
  destruct (flush_ok s Ws) as (Vt & Et & Kt & Pt & Pg & Ps).
  apply good_flush; [exact Ws|].
  assert (ST : stream s = stream (flush_w s)) by (unfold stream; rewrite (flush_idem s Ws); reflexivity).
  rewrite ST. pose proof (W_flush s Ws) as Wt. set (t := flush_w s) in *. clear ST.
  pose proof (After_take t (firstn n (pushback t)) (skipn n (pushback t)) Wt
    (eq_sym (firstn_skipn _ _))) as T.
  set (out := firstn n (pushback t)) in *. set (t2 := set_pushback t (skipn n (pushback t))) in *.
  destruct (Nat.leb_spec n (length out)) as [L|L].
  - injection E as <- <- <-. exists out. split; [exact T|]. split; [reflexivity|].
    split; [unfold out; rewrite firstn_length; lia|].
    intros N X. rewrite X in L. cbn in L. lia.
  - destruct (firstn_nil_inv n (pushback t) L) as [SK FI].
    assert (V2 : V t2) by apply T. assert (E2 : wpend t2 = []) by exact Et.
    assert (P2 : pushback t2 = []) by exact SK.
    destruct (pushback t) as [|x pb] eqn:PB.
    + assert (OUT : out = []) by (unfold out; apply firstn_nil).
      rewrite OUT in *. cbn [length] in *.
      destruct (fill_retry fuel evs t2) as [[[a s1] e1]|] eqn:F; [|discriminate].
      apply fill_retry_ok in F; [|exact V2].
      destruct a as [b|p| |]; injection E as <- <- <-.
      * destruct F as (-> & M & Z0). set (k := Nat.min (length (rest s1)) (n - 0)).
        assert (LK : (k <= length (rest s1))%nat) by (unfold k; lia).
        pose proof (consume_moves k s1 (m_V _ _ _ M) LK) as C.
        pose proof (moves_trans _ _ _ _ _ M C) as MC. cbn [app] in MC.
        exists ([] ++ firstn k (rest s1)).
        split; [exact (After_trans _ _ _ _ _ T (After_moves t2 _ _ V2 E2 P2 MC))|].
        split; [reflexivity|]. cbn [app]. split; [rewrite firstn_length; unfold k; lia|].
        intros N X. destruct T as [_ (T1 & _)]. rewrite T1. cbn [app].
        rewrite (stream_settled t2 E2), P2. cbn [app]. apply Z0.
        destruct (rest s1) as [|y l]; [reflexivity|exfalso].
        assert (LL := f_equal (@length Z) X). rewrite firstn_length in LL. unfold k in LL. cbn [length] in LL. lia.
      * exists ([] ++ []). split; [exact (After_trans _ _ _ _ _ T (After_moves t2 [] s1 V2 E2 P2 F))|auto].
      * exists ([] ++ []). split; [exact (After_trans _ _ _ _ _ T (After_moves t2 [] s1 V2 E2 P2 F))|auto].
      * exists ([] ++ []). split; [exact (After_trans _ _ _ _ _ T (After_moves t2 [] s1 V2 E2 P2 F))|exact I].
    + injection E as <- <- <-. set (k := Nat.min (length (rest t2)) (n - length out)).
      assert (LK : (k <= length (rest t2))%nat) by (unfold k; lia).
      pose proof (consume_moves k t2 V2 LK) as C.
      exists (out ++ firstn k (rest t2)).
      split; [exact (After_trans _ _ _ _ _ T (After_moves t2 _ _ V2 E2 P2 C))|].
      split; [reflexivity|]. split; [rewrite app_length, firstn_length; unfold k; lia|].
      intros N X. exfalso. apply app_eq_nil in X as [X _]. unfold out in X. destruct n; [lia|discriminate].
Qed.

Lemma read_line_ok fuel evs s r s' evs' : W s -> pushback s = [] ->
  read_line fuel evs s = Some (r, s', evs') -> good s r s' (fun b => b = line (stream s)).
Proof.
  intros Ws PB E. unfold read_line in E.
  destruct (flush_ok s Ws) as (Vt & Et & Kt & Pt & _ & _).
  assert (ST : stream s = under (flush_w s)) by (unfold stream; rewrite Pt, PB; reflexivity).
  apply good_flush; [exact Ws|]. rewrite Pt, PB in E. rewrite PB in Pt. set (t := flush_w s) in *.
  destruct (read_until fuel 10 [] evs t) as [[[[f b] s1] e1]|] eqn:Q; [|discriminate].
  apply read_until_ok in Q; [|exact Vt]. destruct Q as (c & X & M & G). cbn [app] in X. subst b.
  cbn [option_map] in E.
  assert (E2 : conclude (f, c, s1, e1) = (r, s', evs')) by (injection E as E; exact E).
  refine (proj1 (conclude_ok t f c s1 e1 r s' evs' _ Vt Et Pt M _ E2)).
  intros F. rewrite ST. apply G. exact F.
Qed.

(** gets also returns the right line when the pushed back bytes are involved; what can be
    lost is what an interrupt finds there. *)
Lemma read_line_bytes_ok fuel evs s b s' evs' : W s ->
  read_line fuel evs s = Some (Bytes b, s', evs') -> After b s s' /\ b = line (stream s).
Proof.
  intros Ws E. destruct (pushback s) as [|x pb0] eqn:PB.
  { apply read_line_ok in E; [|exact Ws|exact PB]. destruct E as (c & A & -> & B). auto. }
  unfold read_line in E.
  destruct (flush_ok s Ws) as (Vt & Et & Kt & Pt & _ & _). pose proof (W_flush s Ws) as Wt.
  assert (ST : stream s = pushback (flush_w s) ++ under (flush_w s)) by reflexivity.
  assert (AF : After b (flush_w s) s' /\ b = line (stream s) -> After b s s' /\ b = line (stream s)).
  { intros [A B]. split; [apply After_flush; assumption|exact B]. }
  apply AF. clear AF. set (t := flush_w s) in *. rewrite <- Pt in PB.
  destruct (pushback t) as [|y pb] eqn:PBT; [discriminate|]. rewrite <- PBT in *. clear PB.
  destruct (find_byte 10 (pushback t)) as [i|] eqn:F.
  - assert (E' : Some (Bytes (firstn (S i) (pushback t)), set_pushback t (skipn (S i) (pushback t)), evs)
              = Some (Bytes b, s', evs')) by (rewrite PBT in E |- *; exact E).
    clear E. injection E' as <- <- <-.
    split.
    + apply (After_take t (firstn (S i) (pushback t))); [exact Wt|].
      symmetry. apply (firstn_skipn (S i)).
    + rewrite ST. symmetry. apply line_found. exact F.
  - set (t2 := set_pushback t []) in *.
    pose proof (After_take t (pushback t) [] Wt (eq_sym (app_nil_r _))) as T. fold t2 in T.
    destruct (read_until fuel 10 [] evs t2) as [[[[f c] s1] e1]|] eqn:Q;
      [|rewrite PBT in E; cbn in E; discriminate].
    apply read_until_ok in Q; [|apply T]. destruct Q as (d & X & M & G). cbn [app] in X. subst d.
    cbn [option_map] in E.
    assert (E' : match conclude (f, c, s1, e1) with
                 | (Bytes b0, s'0, evs'0) => Some (Bytes (pushback t ++ b0), s'0, evs'0)
                 | r => Some r
                 end = Some (Bytes b, s', evs')).
    { rewrite PBT in E |- *. destruct (conclude (f, c, s1, e1)) as [[[]] ]; exact E. }
    clear E. unfold conclude in E'. destruct f; try discriminate. injection E' as <- <- <-.
    split.
    + eapply After_trans; [exact T|]. apply After_moves; [apply T|exact Et|reflexivity|exact M].
    + rewrite ST, (G eq_refl). symmetry. apply line_none. exact F.
Qed.

(** ** gets with a separator or a limit *)

Lemma list_eqb_eq a : forall b, list_eqb a b = true <-> a = b.
Proof.
  induction a as [|x a IH]; intros [|y b]; cbn; split; intros E; try discriminate; auto.
  - apply andb_true_iff in E as [E1 E2]. apply Z.eqb_eq in E1. apply IH in E2. congruence.
  - injection E as -> E. apply andb_true_iff. split; [apply Z.eqb_refl|apply IH; exact E].
Qed.
Lemma ends_with_suffix l sep : ends_with l sep = true <-> suffix sep l.
Proof.
  unfold ends_with, suffix. rewrite andb_true_iff, Nat.leb_le, list_eqb_eq. split.
  - intros [L E]. exists (firstn (length l - length sep) l). rewrite <- E at 2. symmetry. apply firstn_skipn.
  - intros (a & ->). rewrite app_length. split; [lia|].
    replace (length a + length sep - length sep)%nat with (length a) by lia.
    rewrite skipn_app, skipn_all, Nat.sub_diag. reflexivity.
Qed.

Definition open_line (sep : list Z) (limit : option nat) (acc : list Z) : Prop :=
  forall a b, acc = a ++ b -> a <> [] -> ~ suffix sep a /\ limit <> Some (length a).

Lemma good_read1 fuel evs s r s' evs' : W s -> read_impl fuel (Some 1%nat) true evs s = Some (r, s', evs') ->
  good s r s' (fun b => b = firstn 1 (stream s)).
Proof. intros Ws E. exact (read_impl_ok _ _ _ _ _ _ _ _ Ws E). Qed.

Lemma getline_ok fuel : forall sep limit acc evs s0 s r s' evs', W s -> After acc s0 s ->
  (acc = [] \/ ~ suffix sep acc) ->
  (forall a b, acc = a ++ b -> a <> [] -> b <> [] -> ~ suffix sep a /\ limit <> Some (length a)) ->
  (forall n, limit = Some n -> (length acc <= n)%nat) ->
  getline_loop fuel sep limit acc evs s = Some (r, s', evs') ->
  good s0 r s' (is_line sep limit (stream s0)).
Proof.
  induction fuel as [|f IH]; intros sep limit acc evs s0 s r s' evs' Ws A NS OP LIM E; [discriminate|].
  cbn [getline_loop] in E.
  assert (SA : stream s0 = acc ++ stream s) by apply A.
  assert (KA : kind s = kind s0) by apply A.
  destruct (at_limit limit (length acc)) eqn:AL.
  - injection E as <- <- <-. exists acc. split; [exact A|]. split; [reflexivity|].
    exists (stream s). split; [exact SA|]. split; [|exact OP].
    right; left. destruct limit as [n|]; [|discriminate]. apply Nat.leb_le in AL.
    specialize (LIM n eq_refl). f_equal. lia.
  - destruct (read_impl (S f) (Some 1%nat) true evs s) as [[[r1 s1] e1]|] eqn:RI; [|discriminate].
    apply good_read1 in RI; [|exact Ws]. destruct RI as (c & A1 & B1).
    pose proof (After_trans _ _ _ _ _ A A1) as AA.
    assert (HALT : c = [] -> forall c0, After c0 s0 s1 -> (kind s0 <> KStdin -> has_cell s1 = true) -> True) by auto.
    clear HALT.
    destruct r1 as [b| | |].
    + destruct B1 as [-> B1]. destruct b as [|x b].
      * injection E as <- <- <-. rewrite app_nil_r in AA. exists acc. split; [exact AA|].
        split; [reflexivity|]. exists (stream s). split; [exact SA|]. split; [|exact OP].
        right; right. destruct (stream s); [reflexivity|discriminate].
      * destruct (stream s) as [|y u] eqn:SS; [discriminate|]. injection B1 as -> ->.
        assert (NA : acc ++ [y] <> []) by (intros X; apply app_eq_nil in X as [_ X]; discriminate).
        assert (OP' : forall a b, acc ++ [y] = a ++ b -> a <> [] -> b <> [] ->
                  ~ suffix sep a /\ limit <> Some (length a)).
        { intros a b X Na Nb. destruct (exists_last Nb) as (b' & z & ->).
          rewrite app_assoc in X. apply app_inj_tail in X as [X _].
          destruct b' as [|w b'].
          - rewrite app_nil_r in X. subst a. split.
            + destruct NS as [NS|NS]; [congruence|exact NS].
            + intros Y. rewrite Y in AL. cbn in AL. rewrite Nat.leb_refl in AL. discriminate.
          - apply (OP a (w :: b') X Na). discriminate. }
        assert (ST : exists r0, stream s0 = (acc ++ [y]) ++ r0 /\ stream s1 = r0).
        { destruct AA as [_ (Q & _)]. exists (stream s1). split; [exact Q|reflexivity]. }
        destruct (ends_with (acc ++ [y]) sep) eqn:EW.
        -- injection E as <- <- <-. exists (acc ++ [y]). split; [exact AA|]. split; [reflexivity|].
           destruct ST as (r0 & Q & _). exists r0. split; [exact Q|]. split; [|exact OP'].
           left. apply ends_with_suffix. exact EW.
        -- eapply IH; [apply AA|exact AA| |exact OP'| |exact E].
           ++ right. intros X. apply ends_with_suffix in X. congruence.
           ++ intros n X. rewrite app_length. cbn [length].
              rewrite X in AL. cbn in AL. apply Nat.leb_gt in AL. lia.
    + injection E as <- <- <-. destruct (has_cell s1) eqn:HC.
      * assert (KS : kind s <> KStdin) by (intros K; destruct A1 as [_ (_ & _ & _ & K1)];
          unfold has_cell in HC; rewrite K1, K in HC; discriminate).
        rewrite (B1 KS), app_nil_r in AA. exists []. split; [apply After_unread; assumption|auto].
      * exists (acc ++ c). unfold unread. rewrite HC. split; [exact AA|]. intros N. exfalso.
        rewrite cell_of in HC; [discriminate|]. destruct AA as [_ (_ & _ & _ & K1)]. rewrite K1. exact N.
    + injection E as <- <- <-. destruct (has_cell s1) eqn:HC.
      * assert (KS : kind s <> KStdin) by (intros K; destruct A1 as [_ (_ & _ & _ & K1)];
          unfold has_cell in HC; rewrite K1, K in HC; discriminate).
        rewrite (B1 KS), app_nil_r in AA. exists []. split; [apply After_unread; assumption|auto].
      * exists (acc ++ c). unfold unread. rewrite HC. split; [exact AA|]. intros N. exfalso.
        rewrite cell_of in HC; [discriminate|]. destruct AA as [_ (_ & _ & _ & K1)]. rewrite K1. exact N.
    + injection E as <- <- <-. exists (acc ++ c). auto.
Qed.

(** ** eof? and pos *)

Lemma eof_ok fuel evs s r b s' : W s -> kind s <> KStdin ->
  eof fuel evs s = Some (r, b, s') ->
  match r with
  | Bytes _ => After [] s s' /\ r = Bytes [] /\ (b = true <-> stream s = [])
  | Sig | Again => After [] s s'
  | Error => exists c, After c s s'
  end.
Proof.
  intros Ws KS E. unfold eof in E.
  destruct (flush_ok s Ws) as (Vt & Et & Kt & Pt & Pg & Ps).
  assert (NE : stream s <> [] -> Some (Bytes [], false, s) = Some (r, b, s') ->
    match r with
    | Bytes _ => After [] s s' /\ r = Bytes [] /\ (b = true <-> stream s = [])
    | Sig | Again => After [] s s'
    | Error => exists c, After c s s'
    end).
  { intros N X. injection X as <- <- <-. split; [apply After_refl; exact Ws|].
    split; [reflexivity|]. split; [discriminate|congruence]. }
  assert (SS : stream s = pushback s ++ rest s ++ skipn (off (flush_w s)) (content (flush_w s))).
  { unfold stream. rewrite Pt. unfold rest. rewrite Pg, Ps. reflexivity. }
  destruct (pushback s) as [|x pb] eqn:PB.
  2:{ apply NE; [rewrite SS; discriminate|exact E]. }
  destruct (rest s) as [|x l] eqn:RS.
  2:{ apply NE; [rewrite SS; discriminate|exact E]. }
  unfold read_impl in E. rewrite PB in E.
  destruct (read_underlying fuel (Some 1%nat) true evs s) as [[[r1 s1] e1]|] eqn:RU; [|discriminate].
  apply read_underlying_ok in RU; [|exact Ws|exact PB]. destruct RU as [(c & A & B) M].
  destruct r1 as [d| | |].
  - destruct B as [-> B]. cbn in B. specialize (M d eq_refl).
    destruct d as [|y d].
    + injection E as <- <- <-. split; [exact A|]. split; [reflexivity|]. split; [|reflexivity].
      intros _. destruct (stream s); [reflexivity|discriminate].
    + assert (LD : length (y :: d) = 1%nat).
      { rewrite B. destruct (stream s); [discriminate|reflexivity]. }
      destruct d; [|discriminate]. clear LD.
      assert (NS : stream s <> []) by (intros X; rewrite X in B; discriminate).
      assert (P1 : pushback s1 = []) by (rewrite (m_pb _ _ _ M); exact Pt).
      destruct (seek Cur (-1) s1) as [ok s2] eqn:SK.
      pose proof (seek_ok Cur (-1) s1 ok s2 (proj1 A) P1 SK) as SP.
      destruct A as [W1 (A1 & A2 & A3 & A4)].
      destruct (stream_file s Ws PB) as [T0 T1].
      destruct SP as (W2 & F2 & K2 & P2 & SP). cbn zeta in SP. destruct ok.
      * injection E as <- <- <-. destruct SP as (R1 & R2 & R3). cbn in R2.
        assert (TG : target Cur (-1) s1 = tell s) by (cbn [target]; rewrite A2; cbn [length]; lia).
        split; [|split; [reflexivity|split; [discriminate|congruence]]].
        split; [exact W2|]. split; [cbn [app]; rewrite R3, TG, A3; exact T1|].
        split; [rewrite R2; cbn [target length]; rewrite A2; cbn [length]; lia|]. split; congruence.
      * destruct SP as (R1 & R2 & R3).
        assert (HC : has_cell s2 = true) by (apply cell_of; congruence).
        unfold unget in E. rewrite HC in E. injection E as <- <- <-.
        split; [|split; [reflexivity|split; [discriminate|congruence]]].
        apply After_unread; [|exact HC]. split; [exact W2|].
        split; [rewrite R3; exact A1|]. split; [rewrite R2; exact A2|]. split; congruence.
  - injection E as <- <- <-. rewrite (B KS) in A. exact A.
  - injection E as <- <- <-. rewrite (B KS) in A. exact A.
  - injection E as <- <- <-. exists c. exact A.
Qed.

Lemma tell_ok s r s' : W s -> tell_op s = (r, s') ->
  After [] s s' /\ (kind s = KFile true -> r = Some (Z.max 0 (tell s))) /\
  (kind s <> KFile true -> r = None).
Proof.
  intros Ws E. unfold tell_op, seek in E.
  destruct (flush_ok s Ws) as (Vt & Et & Kt & Pt & Pg & Ps).
  destruct (reader_seek_here (flush_w s) Vt) as (A & B & C). rewrite Kt in B, C.
  pose proof (After_flush [] s _ Ws (After_still _ _ Vt Et A)) as AF.
  destruct (kind s) as [k| |] eqn:K.
  - destruct (reader_seek Cur 0 (flush_w s)) as [ok s1] eqn:RS. cbn [fst snd] in *.
    destruct ok; injection E as <- <-.
    + split; [exact AF|]. destruct k.
      * destruct (B eq_refl) as (B1 & _ & B3). split; [|congruence]. intros _. f_equal.
        unfold tell. rewrite B3, Pt. unfold lp. pose proof (v_rest _ Vt). lia.
      * destruct C as [_ C]; [congruence|discriminate].
    + split; [exact AF|]. split; [|reflexivity]. intros X. destruct (B X) as (_ & B2 & _). discriminate.
  - injection E as <- <-. split; [apply After_refl; exact Ws|]. split; [discriminate|reflexivity].
  - injection E as <- <-. split; [apply After_refl; exact Ws|]. split; [discriminate|reflexivity].
Qed.

(** ** All operations *)

Lemma read_line_lost fuel evs s r s' evs' : W s -> read_line fuel evs s = Some (r, s', evs') ->
  exists c, After c s s'.
Proof.
  intros Ws E. destruct (pushback s) as [|x pb0] eqn:PB.
  { apply read_line_ok in E; [|exact Ws|exact PB]. destruct E as (c & A & _). eauto. }
  unfold read_line in E.
  destruct (flush_ok s Ws) as (Vt & Et & Kt & Pt & _ & _). pose proof (W_flush s Ws) as Wt.
  assert (AF : (exists c, After c (flush_w s) s') -> exists c, After c s s').
  { intros [c A]. exists c. apply After_flush; assumption. }
  apply AF. clear AF. set (t := flush_w s) in *. rewrite <- Pt in PB.
  destruct (pushback t) as [|y pb] eqn:PBT; [discriminate|]. rewrite <- PBT in *. clear PB.
  destruct (find_byte 10 (pushback t)) as [i|] eqn:F.
  - assert (E' : Some (Bytes (firstn (S i) (pushback t)), set_pushback t (skipn (S i) (pushback t)), evs)
              = Some (r, s', evs')) by (rewrite PBT in E |- *; exact E).
    clear E. injection E' as <- <- <-. exists (firstn (S i) (pushback t)).
    apply (After_take t (firstn (S i) (pushback t))); [exact Wt|]. symmetry. apply (firstn_skipn (S i)).
  - set (t2 := set_pushback t []) in *.
    pose proof (After_take t (pushback t) [] Wt (eq_sym (app_nil_r _))) as T. fold t2 in T.
    destruct (read_until fuel 10 [] evs t2) as [[[[f c] s1] e1]|] eqn:Q;
      [|rewrite PBT in E; cbn in E; discriminate].
    apply read_until_ok in Q; [|apply T]. destruct Q as (d & X & M & _). cbn [app] in X. subst d.
    destruct (conclude (f, c, s1, e1)) as [[r0 s0] e0] eqn:C.
    pose proof (proj1 (conclude_ok t2 f c s1 e1 r0 s0 e0 (fun _ => True) (proj1 (proj1 T)) Et eq_refl M
      (fun _ => I) C)) as (d & A & _).
    assert (E' : s0 = s').
    { rewrite PBT in E. cbn [option_map] in E. rewrite C in E. destruct r0; injection E as <- <- <-; reflexivity. }
    subst s0. eexists. eapply After_trans; [exact T|exact A].
Qed.

Lemma drop_some r a s : drop_events r = Some (a, s) -> exists evs, r = Some (a, s, evs).
Proof. destruct r as [[[x y] z]|]; [|discriminate]. intros E. injection E as <- <-. eauto. Qed.

(** A reading operation. *)
Lemma step_read s o r s' : W s -> plain s o -> is_read o -> step s o = Some (r, s') ->
  exists c, After c s s' /\
    match r with
    | Bytes b => c = b /\ fits o (stream s) b
    | Sig | Again => restores s o -> c = []
    | Error => True
    end.
Proof.
  intros Ws PL IR E.
  assert (G : forall what, good s r s' what -> (forall b, what b -> fits o (stream s) b) ->
    exists c, After c s s' /\
      match r with
      | Bytes b => c = b /\ fits o (stream s) b
      | Sig | Again => restores s o -> c = []
      | Error => True
      end).
  { intros what (c & A & B) F. exists c. split; [exact A|]. destruct r; try exact I.
    - destruct B as [-> B]. split; [reflexivity|apply F; exact B].
    - intros [R _]. apply B. exact R.
    - intros [R _]. apply B. exact R. }
  destruct o as [len ex fuel evs|n fuel evs|n evs|n fuel evs|fuel evs|sep limit fuel evs|fuel evs| |w o|b|d];
    cbn [step plain is_read] in *; try contradiction.
  - apply drop_some in E as [e E]. apply read_impl_ok in E; [|exact Ws].
    apply (G _ E). intros b B. exact B.
  - apply drop_some in E as [e E]. apply sysread_ok in E; [|exact Ws|exact PL].
    apply (G _ E). intros b B. exact B.
  - apply drop_some in E as [e E]. apply read_nonblock_ok in E; [|exact Ws|exact PL].
    apply (G _ E). intros b B. exact B.
  - apply drop_some in E as [e E]. apply readpartial_ok in E; [|exact Ws].
    apply (G _ E). intros b B. exact B.
  - apply drop_some in E as [e E]. destruct r as [b| | |].
    + destruct (read_line_bytes_ok _ _ _ _ _ _ Ws E) as [A B]. exists b. auto.
    + destruct (pushback s) eqn:PB.
      * apply read_line_ok in E; [|exact Ws|exact PB]. apply (G _ E). intros b B. exact B.
      * destruct (read_line_lost _ _ _ _ _ _ Ws E) as [c A]. exists c. split; [exact A|].
        intros [_ R]. congruence.
    + destruct (pushback s) eqn:PB.
      * apply read_line_ok in E; [|exact Ws|exact PB]. apply (G _ E). intros b B. exact B.
      * destruct (read_line_lost _ _ _ _ _ _ Ws E) as [c A]. exists c. split; [exact A|].
        intros [_ R]. congruence.
    + destruct (read_line_lost _ _ _ _ _ _ Ws E) as [c A]. exists c. auto.
  - apply drop_some in E as [e E].
    apply (getline_ok fuel sep limit [] evs s s r s' e) in E; [|exact Ws|apply After_refl; exact Ws|auto| |].
    + apply (G _ E). intros b B. exact B.
    + intros a b X Na. destruct a; [congruence|discriminate].
    + intros n _. cbn. lia.
  - destruct (eof fuel evs s) as [[[r0 b0] s0]|] eqn:Q; [|discriminate]. injection E as <- <-.
    apply eof_ok in Q; [|exact Ws|exact PL]. destruct r0 as [b| | |].
    + destruct Q as (A & X & _). exists []. split; [exact A|]. injection X as ->. split; reflexivity.
    + exists []. auto.
    + exists []. auto.
    + destruct Q as [c A]. exists c. auto.
  - destruct (tell_op s) as [[z|] s0] eqn:Q; apply tell_ok in Q; try exact Ws; injection E as <- <-;
      exists []; (split; [apply Q|auto]).
    split; reflexivity.
Qed.

Lemma unget_ok b s : W s -> kind s <> KStdin ->
  fst (unget b s) = Bytes [] /\ W (snd (unget b s)) /\
  stream (snd (unget b s)) = b ++ stream s /\
  tell (snd (unget b s)) = tell s - Z.of_nat (length b) /\ file (snd (unget b s)) = file s.
Proof.
  intros Ws K. unfold unget, unread. rewrite (cell_of s K). cbn [fst snd].
  destruct (stream_set_pushback s (b ++ pushback s) Ws) as [A B].
  split; [reflexivity|]. split; [apply W_set_pushback; [exact Ws|congruence]|].
  split; [rewrite B, A, app_assoc; reflexivity|].
  split; [rewrite tell_set_pushback, app_length by exact Ws; lia|].
  unfold file. rewrite flush_set_pushback. reflexivity.
Qed.

(** ** Writing *)

Lemma nth_repeat0 n i : nth i (repeat 0 n) 0 = 0.
Proof. revert i; induction n as [|n IH]; intros [|i]; cbn; auto. Qed.
Lemma overwrite_written c k d : written c k d (overwrite c k d).
Proof.
  split; [apply overwrite_length|]. intros i. unfold overwrite.
  assert (LF : length (firstn k (c ++ repeat 0 (k - length c))) = k)
    by (rewrite firstn_length, app_length, repeat_length; lia).
  destruct (Nat.ltb_spec i k) as [Q|Q].
  - rewrite app_nth1 by lia.
    assert (N : nth i (firstn k (c ++ repeat 0 (k - length c))) 0 = nth i (c ++ repeat 0 (k - length c)) 0).
    { rewrite <- (firstn_skipn k (c ++ repeat 0 (k - length c))) at 2. rewrite app_nth1 by lia. reflexivity. }
    rewrite N. destruct (Nat.lt_ge_cases i (length c)) as [L|L].
    + rewrite app_nth1 by exact L. reflexivity.
    + rewrite app_nth2 by exact L. rewrite nth_repeat0, nth_overflow by exact L. reflexivity.
  - rewrite app_nth2 by lia. rewrite LF.
    destruct (Nat.ltb_spec i (k + length d)) as [L|L].
    + rewrite app_nth1 by lia. reflexivity.
    + rewrite app_nth2 by lia. rewrite <- (firstn_skipn (k + length d) c) at 2.
      destruct (Nat.le_gt_cases (k + length d) (length c)) as [Y|Y].
      * rewrite app_nth2 by (rewrite firstn_length; lia). f_equal. rewrite firstn_length. lia.
      * rewrite skipn_all2 by lia. rewrite app_nil_r, firstn_all2 by lia.
        rewrite (nth_overflow c) by lia. destruct (i - k - length d)%nat; reflexivity.
Qed.
Lemma written_unique c k d a b : written c k d a -> written c k d b -> a = b.
Proof.
  intros [L1 N1] [L2 N2]. apply (nth_ext a b 0 0); [congruence|]. intros n _. rewrite N1, N2. reflexivity.
Qed.
Lemma overwrite_app c k w d : overwrite c k (w ++ d) = overwrite (overwrite c k w) (k + length w) d.
Proof.
  apply (written_unique c k (w ++ d)); [apply overwrite_written|].
  destruct (overwrite_written (overwrite c k w) (k + length w) d) as [L N].
  destruct (overwrite_written c k w) as [L0 N0].
  split; [rewrite L, L0, app_length; lia|]. intros i. rewrite N, N0, app_length.
  destruct (Nat.ltb_spec i (k + length w)) as [Q|Q].
  - destruct (Nat.ltb_spec i k) as [Y|Y]; [reflexivity|].
    destruct (Nat.ltb_spec i (k + (length w + length d))) as [H|H]; [|lia].
    rewrite app_nth1 by lia. reflexivity.
  - destruct (Nat.ltb_spec i k) as [Y|Y]; [lia|].
    replace (k + (length w + length d))%nat with (k + length w + length d)%nat by lia.
    destruct (Nat.ltb_spec i (k + length w + length d)) as [H|H]; [|reflexivity].
    rewrite app_nth2 by lia. f_equal. lia.
Qed.

Lemma write_ok d s k : W s -> kind s = KFile k -> plain s (Write d) ->
  let s' := write d s in
  W s' /\ tell s' = tell s + Z.of_nat (length d) /\
  (d <> [] -> written (file s) (Z.to_nat (tell s)) d (file s')) /\ (d = [] -> s' = s) /\
  pushback s' = [].
Proof.
  intros Ws K (R & PB & L & LC) s'.
  assert (KW : kind s' = KFile k) by exact K.
  assert (TW : tell s' = Z.of_nat (off s + length (wpend s ++ d))).
  { unfold tell, flush_w. change (kind s') with (kind s). change (wpend s') with (wpend s ++ d). rewrite K.
    destruct (wpend s ++ d) as [|x w] eqn:Q.
    - change (rest s') with (rest s). change (pushback s') with (pushback s). rewrite R, PB.
      change (off s') with (off s). cbn [length]. lia.
    - rewrite <- Q. cbn [off pushback]. change (rest (Mk _ _ _ _ _ _ _)) with (rest s).
      rewrite R. change (pushback s') with (pushback s). rewrite PB. change (off s') with (off s).
      cbn [length]. rewrite app_length in *. lia. }
  assert (TS : tell s = Z.of_nat (off s + length (wpend s))).
  { unfold tell, flush_w. rewrite K. destruct (wpend s) as [|x w] eqn:Q.
    - rewrite R, PB. cbn [length]. lia.
    - rewrite <- Q. cbn [off pushback]. change (rest (Mk _ _ _ _ _ _ _)) with (rest s).
      rewrite R, PB. cbn [length]. rewrite Q. cbn [length]. lia. }
  split.
  - split.
    + destruct (proj1 Ws). constructor; auto.
    + right. split; [exact R|]. split; [eexists; exact K|]. exact L.
  - split; [rewrite TW, TS, app_length; lia|]. split; [|split; [|exact PB]].
    + intros N. rewrite TS, Nat2Z.id.
      assert (FS : file s = match wpend s with [] => content s | _ => overwrite (content s) (off s) (wpend s) end).
      { unfold file, flush_w. rewrite K. destruct (wpend s); reflexivity. }
      assert (FW : file s' = overwrite (content s) (off s) (wpend s ++ d)).
      { unfold file, flush_w. change (kind s') with (kind s). change (wpend s') with (wpend s ++ d). rewrite K.
        destruct (wpend s ++ d) eqn:Q; [|reflexivity]. apply app_eq_nil in Q as [_ Q]. congruence. }
      rewrite FW, FS. destruct (wpend s) as [|x w] eqn:Q.
      * cbn [app length]. rewrite Nat.add_0_r. apply overwrite_written.
      * rewrite overwrite_app. apply overwrite_written.
    + intros ->. subst s'. unfold write. rewrite app_nil_r. destruct s; reflexivity.
Qed.

(** ** Histories *)

Lemma opened_W k c : Z.of_nat (length c) < 2 ^ 63 -> W (opened k c).
Proof.
  intros L. apply W_settled; [|reflexivity]. apply V_empty; try reflexivity. exact L.
Qed.

Lemma step_W s o r s' : W s -> plain s o -> step s o = Some (r, s') -> W s'.
Proof.
  intros Ws PL E.
  assert (RD : is_read o -> W s').
  { intros IR. destruct (step_read s o r s' Ws PL IR E) as (c & A & _). apply A. }
  destruct o as [len ex fuel evs|n fuel evs|n evs|n fuel evs|fuel evs|sep limit fuel evs|fuel evs| |w o|b|d];
    try (apply RD; exact I).
  - cbn in E, PL. destruct (seek w o s) as [ok s0] eqn:Q.
    apply seek_ok in Q; [|exact Ws|exact PL]. destruct ok; injection E as <- <-; apply Q.
  - cbn in E. injection E as E. unfold unget in E. destruct (has_cell s) eqn:H; [|congruence].
    injection E as <- <-. unfold unread. rewrite H. apply W_set_pushback; [exact Ws|].
    unfold has_cell in H. intros K. rewrite K in H. discriminate.
  - cbn in E. destruct (kind s) as [k| |] eqn:K; try discriminate. injection E as <- <-.
    apply (write_ok d s k Ws K PL).
Qed.

Lemma history_W s : history plain s -> W s.
Proof.
  induction 1 as [k c L|s o r s' H IH P E]; [apply opened_W; exact L|eapply step_W; eassumption].
Qed.

Lemma history_plain s : history no_unget s -> history plain s.
Proof.
  induction 1 as [k c L|s o r s' H IH [P _] E]; [constructor; exact L|econstructor; eassumption].
Qed.

Definition at_position (s : io) : Prop :=
  0 <= tell s /\ stream s = skipn (Z.to_nat (tell s)) (file s).

Lemma consumed_at b s s' : consumed b s s' -> at_position s -> at_position s'.
Proof.
  intros (A & B & C & _) [D E]. split; [lia|].
  rewrite C, B. replace (Z.to_nat (tell s + Z.of_nat (length b))) with (Z.to_nat (tell s) + length b)%nat by lia.
  rewrite <- skipn_add, <- E, A, skipn_app, skipn_all, Nat.sub_diag. reflexivity.
Qed.

Lemma stays_at_position s : history no_unget s -> at_position s.
Proof.
  intros H. induction H as [k c L|s o r s' H IH [P N] E].
  - apply stream_file; [apply opened_W; exact L|reflexivity].
  - pose proof (history_W s (history_plain s H)) as Ws.
    assert (RD : is_read o -> at_position s').
    { intros IR. destruct (step_read s o r s' Ws P IR E) as (c & [_ A] & _).
      eapply consumed_at; eassumption. }
    destruct o as [len ex fuel evs|n fuel evs|n evs|n fuel evs|fuel evs|sep limit fuel evs|fuel evs| |w o|b|d];
      try (apply RD; exact I).
    + cbn in E, P. destruct (seek w o s) as [ok s0] eqn:Q.
      apply seek_ok in Q; [|exact Ws|exact P]. destruct Q as (W0 & _ & _ & PB & _).
      destruct ok; injection E as <- <-; apply stream_file; assumption.
    + contradiction.
    + cbn in E. destruct (kind s) as [k| |] eqn:K; try discriminate. injection E as <- <-.
      destruct (write_ok d s k Ws K P) as (W0 & _ & _ & _ & PB). apply stream_file; assumption.
Qed.

Lemma reads_at s o b s' : history no_unget s -> plain s o -> is_read o -> step s o = Some (Bytes b, s') ->
  let left := skipn (Z.to_nat (tell s)) (file s) in
  fits o left b /\ b = firstn (length b) left /\ tell s' = tell s + Z.of_nat (length b) /\ file s' = file s.
Proof.
  intros H P IR E left. pose proof (history_W s (history_plain s H)) as Ws.
  destruct (step_read s o (Bytes b) s' Ws P IR E) as (c & [_ (A & B & C & _)] & -> & F).
  destruct (stays_at_position s H) as [_ X]. rewrite X in A, F. fold left in A, F.
  split; [exact F|]. split; [|auto].
  rewrite A, firstn_app, firstn_all, Nat.sub_diag. cbn. rewrite app_nil_r. reflexivity.
Qed.

Lemma interrupted_keeps s o r s' : history plain s -> plain s o -> is_read o -> restores s o ->
  step s o = Some (r, s') -> r = Sig \/ r = Again ->
  stream s' = stream s /\ tell s' = tell s /\ file s' = file s.
Proof.
  intros H P IR R E D. pose proof (history_W s H) as Ws.
  destruct (step_read s o r s' Ws P IR E) as (c & [_ (A & B & C & _)] & F).
  assert (c = []) as -> by (destruct D as [-> | ->]; apply F; exact R).
  cbn in *. repeat split; auto. lia.
Qed.

Lemma reads_stream s o b s' : history plain s -> plain s o -> is_read o -> step s o = Some (Bytes b, s') ->
  fits o (stream s) b /\ stream s = b ++ stream s' /\ tell s' = tell s + Z.of_nat (length b) /\ file s' = file s.
Proof.
  intros H P IR E. pose proof (history_W s H) as Ws.
  destruct (step_read s o (Bytes b) s' Ws P IR E) as (c & [_ (A & B & C & _)] & -> & F). auto.
Qed.

Lemma seeks s w o ok s' : history plain s -> pushback s = [] -> seek w o s = (ok, s') ->
  let t := target w o s in
  file s' = file s /\
  (kind s = KFile true -> (ok = true <-> 0 <= t < 2 ^ 63)) /\ (kind s <> KFile true -> ok = false) /\
  (ok = true -> tell s' = t /\ stream s' = skipn (Z.to_nat t) (file s)) /\
  (ok = false -> tell s' = tell s /\ stream s' = stream s).
Proof.
  intros H PB E t. pose proof (history_W s H) as Ws.
  assert (NK : kind s <> KFile true -> ok = false).
  { intros N. unfold seek in E. destruct (flush_ok s Ws) as (_ & _ & K & _).
    destruct (kind s) as [[|]| |] eqn:KS; try congruence.
    unfold reader_seek, lseek in E. rewrite K in E.
    destruct w; [congruence| |congruence]. destruct (Z.leb _ _); congruence. }
  pose proof (seek_ok w o s ok s' Ws PB E) as (W' & F & K & P & SP). cbn zeta in SP. fold t in SP.
  split; [exact F|]. destruct ok.
  - destruct SP as (A & B & C). split; [intros _; split; auto|]. split; [intros N; specialize (NK N); discriminate|].
    split; [auto|discriminate].
  - destruct SP as (A & B & C). split; [intros Kt; split; [discriminate|intros X; exfalso; exact (A Kt X)]|].
    split; [reflexivity|]. split; [discriminate|auto].
Qed.

Lemma eof_right s fuel evs r b s' : history plain s -> kind s <> KStdin ->
  eof fuel evs s = Some (r, b, s') -> r <> Error ->
  stream s' = stream s /\ tell s' = tell s /\ file s' = file s /\
  (forall x, r = Bytes x -> (b = true <-> stream s = [])).
Proof.
  intros H K E N. pose proof (history_W s H) as Ws. pose proof (eof_ok fuel evs s r b s' Ws K E) as Q.
  assert (A : After [] s s') by (destruct r; [apply Q|exact Q|exact Q|congruence]).
  destruct A as [_ (A & B & C & _)]. cbn in A, B. split; [auto|]. split; [lia|]. split; [exact C|].
  intros x X. subst r. apply Q.
Qed.

Lemma pos_right s : history plain s -> kind s = KFile true ->
  fst (tell_op s) = Some (Z.max 0 (tell s)) /\
  stream (snd (tell_op s)) = stream s /\ tell (snd (tell_op s)) = tell s.
Proof.
  intros H K. pose proof (history_W s H) as Ws. destruct (tell_op s) as [r s'] eqn:E.
  destruct (tell_ok s r s' Ws E) as ([_ (A & B & _)] & R & _). cbn in *.
  split; [apply R; exact K|]. split; [auto|lia].
Qed.

Lemma ungets s b : history plain s -> kind s <> KStdin ->
  stream (snd (unget b s)) = b ++ stream s /\ tell (snd (unget b s)) = tell s - Z.of_nat (length b).
Proof.
  intros H K. pose proof (history_W s H) as Ws. destruct (unget_ok b s Ws K) as (_ & _ & A & B & _). auto.
Qed.

Lemma writes s d k : history no_unget s -> kind s = KFile k -> plain s (Write d) -> d <> [] ->
  written (file s) (Z.to_nat (tell s)) d (file (write d s)) /\
  tell (write d s) = tell s + Z.of_nat (length d) /\
  stream (write d s) = skipn (Z.to_nat (tell s) + length d) (file (write d s)).
Proof.
  intros H K P N. pose proof (history_W s (history_plain s H)) as Ws.
  destruct (write_ok d s k Ws K P) as (W0 & A & B & _ & PB).
  split; [apply B; exact N|]. split; [exact A|].
  destruct (stream_file (write d s) W0 PB) as [_ X]. rewrite X, A.
  destruct (stays_at_position s H) as [T _]. f_equal. lia.
Qed.

(** ** Where it goes wrong *)

Definition any (s : io) (o : op) : Prop := True.
Fixpoint run (s : io) (os : list op) : option (list result * io) :=
  match os with
  | [] => Some ([], s)
  | o :: os' =>
      match step s o with
      | Some (r, s') => match run s' os' with Some (rs, t) => Some (r :: rs, t) | None => None end
      | None => None
      end
  end.

Lemma run_history os : forall s rs s', history any s -> run s os = Some (rs, s') -> history any s'.
Proof.
  induction os as [|o os IH]; intros s rs s' H E; cbn in E.
  - injection E as <- <-. exact H.
  - destruct (step s o) as [[r s1]|] eqn:S1; [|discriminate].
    destruct (run s1 os) as [[rs1 t]|] eqn:R; [|discriminate]. injection E as <- <-.
    eapply IH; [|exact R]. eapply H_step; [exact H|exact I|exact S1].
Qed.

Definition ask : list event :=
  [P false; K (Got 9) false; P false; K (Got 9) false; P false; K (Got 9) false].

Lemma seek_stale : exists s b s', history any s /\ file s = [97; 98; 99; 10] /\
  step s (Seek Set_ 0) = Some (Bytes [], s') /\ b = [97; 98] ++ file s /\
  exists s'', step s' (Read None false 9 ask) = Some (Bytes b, s'').
Proof.
  destruct (run (opened (KFile true) [97; 98; 99; 10]) [Read None false 9 [P false; K (Got 2) false; P true]])
    as [[rs s]|] eqn:E; [|vm_compute in E; discriminate].
  exists s. pose proof (run_history _ _ _ _ (H_open any (KFile true) [97; 98; 99; 10] ltac:(reflexivity)) E) as H.
  vm_compute in E. injection E as <- <-.
  do 2 eexists. split; [exact H|]. split; [reflexivity|].
  split; [vm_compute; reflexivity|]. split; [reflexivity|]. eexists. vm_compute. reflexivity.
Qed.

Lemma line_lost : exists s s', history any s /\ step s (Line 9 [P true]) = Some (Sig, s') /\
  stream s = [97; 98; 99; 10] /\ stream s' = [98; 99; 10].
Proof.
  destruct (run (opened KPopen [97; 98; 99; 10]) [Line 9 [P false; K (Got 1) false; P true]])
    as [[rs s]|] eqn:E; [|vm_compute in E; discriminate].
  exists s. pose proof (run_history _ _ _ _ (H_open any KPopen [97; 98; 99; 10] ltac:(reflexivity)) E) as H.
  vm_compute in E. injection E as <- <-.
  eexists. split; [exact H|]. split; [vm_compute; reflexivity|]. split; reflexivity.
Qed.

Lemma nonblock_order : exists s s' s'', history any s /\ stream s = [98; 99; 100] /\
  step s (Nonblock 9 [K (Got 9) false]) = Some (Bytes [100], s') /\
  step s' (Read None false 9 (P false :: ask)) = Some (Bytes [98; 99], s'').
Proof.
  destruct (run (opened (KFile false) [97; 98; 99; 100]) [Read (Some 1%nat) false 9 [P false; K (Got 3) false]])
    as [[rs s]|] eqn:E; [|vm_compute in E; discriminate].
  exists s. pose proof (run_history _ _ _ _ (H_open any (KFile false) [97; 98; 99; 100] ltac:(reflexivity)) E) as H.
  vm_compute in E. injection E as <- <-.
  exists (Mk (KFile false) [97; 98; 99; 100] 4 [97; 98; 99] 1 [] []), (Mk (KFile false) [97; 98; 99; 100] 4 [] 0 [] []).
  split; [exact H|]. split; [reflexivity|]. split; vm_compute; reflexivity.
Qed.

Lemma stdin_lost : exists s s', history any s /\
  step s (Read None false 9 [P false; K (Got 3) false; P true]) = Some (Sig, s') /\
  stream s = [97; 98; 99; 100] /\ stream s' = [100].
Proof.
  exists (opened KStdin [97; 98; 99; 100]). eexists. split; [constructor; reflexivity|].
  split; [vm_compute; reflexivity|]. split; reflexivity.
Qed.

Lemma stdin_eof : exists s s', history any s /\
  eof 9 ask s = Some (Error, false, s') /\ stream s = [97; 98] /\ stream s' = [98].
Proof.
  exists (opened KStdin [97; 98]). eexists. split; [constructor; reflexivity|].
  split; [vm_compute; reflexivity|]. split; reflexivity.
Qed.

Lemma write_astray : exists s, history any s /\ kind s = KFile true /\ pushback s = [] /\
  file s = [97; 10; 99; 100] /\ tell s = 2 /\ file (write [88] s) = [97; 10; 99; 100; 88].
Proof.
  destruct (run (opened (KFile true) [97; 10; 99; 100]) [Line 9 ask])
    as [[rs s]|] eqn:E; [|vm_compute in E; discriminate].
  exists s. pose proof (run_history _ _ _ _ (H_open any (KFile true) [97; 10; 99; 100] ltac:(reflexivity)) E) as H.
  vm_compute in E. injection E as <- <-.
  split; [exact H|]. repeat split; reflexivity.
Qed.
