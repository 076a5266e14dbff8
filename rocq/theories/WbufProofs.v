(** Proofs about the write side. *)

From Coq Require Import ZArith Bool List Lia Arith.
From Verif Require Import WbufModel WbufSpec.
Import ListNotations.
Local Open Scope Z_scope.

Lemma firstn_skipn_add0 {A} a : forall (m : list A) b,
  firstn a m ++ firstn b (skipn a m) = firstn (a + b) m.
Proof.
  induction a as [|a IH]; intros [|x m] b; cbn; try reflexivity.
  - destruct b; reflexivity.
  - rewrite IH. reflexivity.
Qed.
Lemma skipn_add {A} a : forall (l : list A) k, skipn a (skipn k l) = skipn (k + a) l.
Proof.
  intros l k; revert l; induction k as [|k IH]; intros l; [reflexivity|].
  destruct l as [|x l]; cbn; [apply skipn_nil|apply IH].
Qed.
Lemma firstn_skipn_add {A} (l : list A) k a b :
  firstn a (skipn k l) ++ firstn b (skipn (k + a) l) = firstn (a + b) (skipn k l).
Proof.
  rewrite <- firstn_skipn_add0. rewrite skipn_add. reflexivity.
Qed.
Lemma firstn_of_length {A} n (m : list A) : firstn (length (firstn n m)) m = firstn n m.
Proof.
  revert m; induction n as [|n IH]; intros [|x m]; cbn; try reflexivity. rewrite IH. reflexivity.
Qed.

Lemma push_out_ok ts : forall data k out r k' o,
  push_out ts data k out = Some (r, k', o) -> (k <= length data)%nat ->
  (k <= k' <= length data)%nat /\ o = out ++ firstn (k' - k) (skipn k data) /\
  (r = ROk -> k' = length data).
Proof.
  induction ts as [|t ts IH]; intros data k out r k' o E L; cbn in E.
  - destruct (Nat.leb_spec (length data) k) as [Q|Q]; [|discriminate].
    injection E as <- <- <-. rewrite Nat.sub_diag. cbn. rewrite app_nil_r.
    repeat split; try lia.
  - destruct (Nat.leb_spec (length data) k) as [Q|Q].
    + injection E as <- <- <-. rewrite Nat.sub_diag. cbn. rewrite app_nil_r.
      repeat split; try lia.
    + assert (stop : forall r0, r0 <> ROk -> Some (r0, k, out) = Some (r, k', o) ->
        (k <= k' <= length data)%nat /\ o = out ++ firstn (k' - k) (skipn k data) /\
        (r = ROk -> k' = length data)).
      { intros r0 N X. injection X as <- <- <-. rewrite Nat.sub_diag. cbn.
        rewrite app_nil_r. repeat split; try lia. intros; congruence. }
      destruct (before t); [apply (stop RSignal); [discriminate|exact E]|].
      destruct (ans t) as [n| | |].
      * destruct (firstn n (skipn k data)) as [|b got] eqn:G.
        { apply (stop RErr); [discriminate|exact E]. }
        rewrite <- G in E.
        assert (LG : length (firstn n (skipn k data)) = Nat.min n (length data - k))
          by (rewrite firstn_length, skipn_length; lia).
        set (g := length (firstn n (skipn k data))) in *.
        apply IH in E; [|lia].
        destruct E as (A & B & C). split; [lia|split; [|exact C]].
        rewrite B, <- app_assoc. f_equal.
        replace (firstn n (skipn k data)) with (firstn g (skipn k data)).
        -- rewrite firstn_skipn_add. f_equal. lia.
        -- apply firstn_of_length.
      * destruct (after t); [apply (stop RSignal); [discriminate|exact E]|].
        apply IH in E; assumption.
      * apply (stop RAgain); [discriminate|exact E].
      * apply (stop RErr); [discriminate|exact E].
Qed.

Lemma drain_ok ts w r w' : drain ts w = Some (r, w') ->
  out w' ++ buf w' = out w ++ buf w /\ sync w' = sync w /\ tty w' = tty w /\
  (length (buf w') <= length (buf w))%nat /\ (r = ROk -> buf w' = []).
Proof.
  unfold drain. destruct (push_out ts (buf w) 0 (out w)) as [[[r0 k] o]|] eqn:E; [|discriminate].
  intros X. injection X as <- <-. cbn [out buf sync tty].
  apply push_out_ok in E; [|lia]. destruct E as (A & -> & C). cbn [skipn] in *.
  rewrite Nat.sub_0_r, <- app_assoc, firstn_skipn.
  repeat split.
  - rewrite skipn_length. lia.
  - intros R. apply skipn_all2. rewrite (C R). lia.
Qed.

Lemma write_ok ts1 ts2 data p w r w' p' :
  write ts1 ts2 data p w = Some (r, w', p') -> (p <= length data)%nat ->
  (p <= p' <= length data)%nat /\
  out w' ++ buf w' = (out w ++ buf w) ++ firstn (p' - p) (skipn p data) /\
  sync w' = sync w /\ tty w' = tty w /\
  (r = ROk -> p' = length data) /\
  (r = ROk -> writes_through w = true -> buf w' = []) /\
  (Z.of_nat (length (buf w)) < capa -> Z.of_nat (length (buf w')) < capa).
Proof.
  unfold write. intros E L.
  destruct (negb (writes_through w) && _) eqn:Q.
  - injection E as <- <- <-. cbn [out buf sync tty].
    apply andb_true_iff in Q as [Q1 Q2]. apply Z.ltb_lt in Q2.
    rewrite (firstn_all2 (n := length data - p)) by (rewrite skipn_length; lia).
    rewrite app_assoc. repeat split; try lia.
    + intros _ T. rewrite T in Q1. discriminate.
    + intros _. rewrite app_length, skipn_length. lia.
  - destruct (drain ts1 w) as [[r1 w1]|] eqn:D; [|discriminate].
    apply drain_ok in D as (D1 & D2 & D3 & D4 & D5).
    assert (stop : r1 <> ROk -> Some (r1, w1, p) = Some (r, w', p') ->
      (p <= p' <= length data)%nat /\
      out w' ++ buf w' = (out w ++ buf w) ++ firstn (p' - p) (skipn p data) /\
      sync w' = sync w /\ tty w' = tty w /\ (r = ROk -> p' = length data) /\
      (r = ROk -> writes_through w = true -> buf w' = []) /\
      (Z.of_nat (length (buf w)) < capa -> Z.of_nat (length (buf w')) < capa)).
    { intros N X. injection X as <- <- <-. rewrite Nat.sub_diag. cbn [firstn].
      rewrite app_nil_r. repeat split; try lia; try assumption; intros; congruence. }
    destruct r1; try (apply stop; [discriminate|exact E]).
    destruct (push_out ts2 data p (out w1)) as [[[r2 k] o]|] eqn:P; [|discriminate].
    injection E as <- <- <-. cbn [out buf sync tty].
    apply push_out_ok in P; [|exact L]. destruct P as (A & -> & C).
    specialize (D5 eq_refl). rewrite D5 in *. rewrite app_nil_r in *.
    rewrite D1. repeat split; try lia; try assumption.
Qed.

(** ** The invariant *)

Lemma accepted_app a b : accepted (a ++ b) = accepted a ++ accepted b.
Proof. unfold accepted. rewrite map_app, concat_app. reflexivity. Qed.
Lemma from_call_app i a b : from_call i (a ++ b) = from_call i a ++ from_call i b.
Proof. unfold from_call. rewrite filter_app, accepted_app. reflexivity. Qed.
Lemma from_call_one i j c : from_call i [(j, c)] = if Nat.eqb j i then c else [].
Proof. unfold from_call. cbn. destruct (Nat.eqb j i); cbn; [apply app_nil_r|reflexivity]. Qed.

Lemma upd_eq f i c : upd f i c i = c.
Proof. unfold upd. rewrite Nat.eqb_refl. reflexivity. Qed.
Lemma upd_ne f i c j : j <> i -> upd f i c j = f j.
Proof. unfold upd. destruct (Nat.eqb_spec j i); congruence. Qed.

Definition well (c : call) : Prop :=
  (done_of c <= length (data_of c))%nat /\
  (forall d k, c = Ended d k true -> k = length d).

Definition per_call (s : state) (log : list entry) : Prop :=
  forall i, well (calls s i) /\
    from_call i log = firstn (done_of (calls s i)) (data_of (calls s i)).

(** A step changes at most one call, and that only by accepting more of the same data. *)
Lemma per_call_step s log l s' :
  per_call s log -> step s l = Some s' -> per_call s' (log ++ entries l s s').
Proof.
  intros P E.
  assert (upd_case : forall i c w g,
    s' = S_ w (upd (calls s) i c) g -> entries l s s' = [(i, chunk i s s')] -> well c ->
    (done_of (calls s i) <= done_of c)%nat ->
    (calls s i = Unused \/ data_of c = data_of (calls s i)) -> per_call s' (log ++ entries l s s')).
  { intros i c w g -> LE WC LD DD j. cbn [calls]. rewrite LE, from_call_app, from_call_one.
    destruct (P j) as [W F]. unfold chunk. cbn [calls]. rewrite !upd_eq.
    destruct (Nat.eqb_spec i j) as [<-|N].
    - rewrite upd_eq. split; [exact WC|]. rewrite F.
      destruct DD as [U|DD].
      + rewrite U. cbn [done_of data_of firstn skipn app]. rewrite Nat.sub_0_r. reflexivity.
      + rewrite DD. pose proof (firstn_skipn_add (data_of (calls s i)) 0 (done_of (calls s i))
          (done_of c - done_of (calls s i))) as X. cbn [skipn] in X.
        cbn [Nat.add] in X. rewrite X. f_equal. lia.
    - rewrite upd_ne by congruence. rewrite app_nil_r. split; [exact W|exact F]. }
  assert (same : calls s' = calls s -> entries l s s' = [] -> per_call s' (log ++ entries l s s')).
  { intros C X j. rewrite X, app_nil_r, C. apply P. }
  unfold step in E. destruct (gone s); [discriminate|].
  destruct l as [i data|i ts1 ts2|i|ts|b|i data a|].
  - destruct (calls s i) eqn:C; try discriminate. injection E as E. symmetry in E.
    eapply (upd_case i (Open data 0)); [exact E|reflexivity| |rewrite C; cbn; lia|left; exact C].
    split; [cbn; lia|discriminate].
  - destruct (calls s i) as [|data k|] eqn:C; try discriminate.
    destruct (write ts1 ts2 data k (wb s)) as [[[r w] k']|] eqn:WR; [|discriminate].
    injection E as E. symmetry in E.
    destruct (P i) as [[W1 _] _]. rewrite C in W1. cbn in W1.
    apply write_ok in WR; [|exact W1]. destruct WR as (A & _ & _ & _ & R & _).
    eapply (upd_case i (after_try data k' r)); [exact E|reflexivity| | |right].
    + destruct r; (split; [cbn; lia|]); try discriminate.
      cbn. intros d k0 X. injection X as <- <-. apply R. reflexivity.
    + rewrite C. destruct r; cbn; lia.
    + rewrite C. destruct r; reflexivity.
  - destruct (calls s i) as [|data k|] eqn:C; try discriminate. injection E as E. symmetry in E.
    destruct (P i) as [[W1 _] _]. rewrite C in W1. cbn in W1.
    eapply (upd_case i (Ended data k false)); [exact E|reflexivity| | |right].
    + split; [exact W1|discriminate].
    + rewrite C. cbn. lia.
    + rewrite C. reflexivity.
  - destruct (drain ts (wb s)) as [[r w]|]; [|discriminate]. injection E as <-.
    apply same; reflexivity.
  - injection E as <-. apply same; reflexivity.
  - destruct (calls s i) eqn:C; try discriminate. destruct a as [n| | |]; injection E as E; symmetry in E.
    + eapply (upd_case i (Ended (firstn n data) (length (firstn n data)) true));
        [exact E|reflexivity| |rewrite C; cbn; lia|left; exact C].
      split; [cbn; lia|]. intros d k X. injection X as <- <-. reflexivity.
    + eapply (upd_case i (Ended data 0 false)); [exact E|reflexivity| |rewrite C; cbn; lia|left; exact C].
      split; [cbn; lia|discriminate].
    + eapply (upd_case i (Ended data 0 false)); [exact E|reflexivity| |rewrite C; cbn; lia|left; exact C].
      split; [cbn; lia|discriminate].
    + eapply (upd_case i (Ended data 0 false)); [exact E|reflexivity| |rewrite C; cbn; lia|left; exact C].
      split; [cbn; lia|discriminate].
  - injection E as <-. apply same; reflexivity.
Qed.

Lemma per_call_history (ok : state -> label -> Prop) s log : history ok s log -> per_call s log.
Proof.
  induction 1 as [sy ty|s log l s' H IH O E].
  - intros i. cbn. split; [split; [cbn; lia|discriminate]|reflexivity].
  - eapply per_call_step; eassumption.
Qed.

Lemma each_call (ok : state -> label -> Prop) s log i : history ok s log ->
  from_call i log = firstn (done_of (calls s i)) (data_of (calls s i)).
Proof. intros H. apply (per_call_history ok s log H). Qed.

Lemma complete_call (ok : state -> label -> Prop) s log i data k : history ok s log ->
  calls s i = Ended data k true -> from_call i log = data.
Proof.
  intros H C. destruct (per_call_history ok s log H i) as [[_ W] F].
  rewrite C in *. cbn in F. rewrite F, (W data k eq_refl). apply firstn_all.
Qed.

Lemma no_underflow (ok : state -> label -> Prop) s log i data k : history ok s log ->
  calls s i = Open data k -> (k <= length data)%nat.
Proof.
  intros H C. destruct (per_call_history ok s log H i) as [[W _] _].
  rewrite C in W. exact W.
Qed.

Lemma conserved s log : history plain s log -> out (wb s) ++ buf (wb s) = accepted log.
Proof.
  intros H. induction H as [sy ty|s log l s' H IH O E]; [reflexivity|].
  pose proof (per_call_history plain s log H) as P.
  rewrite accepted_app, <- IH.
  unfold step in E. destruct (gone s); [discriminate|].
  destruct l as [i data|i ts1 ts2|i|ts|b|i data a|]; cbn [entries accepted map snd concat].
  - destruct (calls s i) eqn:C; try discriminate. injection E as <-.
    unfold accepted, chunk. cbn. rewrite upd_eq, C. cbn. rewrite app_nil_r. reflexivity.
  - destruct (calls s i) as [|data k|] eqn:C; try discriminate.
    destruct (write ts1 ts2 data k (wb s)) as [[[r w] k']|] eqn:WR; [|discriminate].
    injection E as <-. destruct (P i) as [[W1 _] _]. rewrite C in W1. cbn in W1.
    apply write_ok in WR; [|exact W1]. destruct WR as (A & B & _).
    unfold accepted, chunk. cbn [map snd concat wb calls]. rewrite upd_eq, C, B, app_nil_r.
    destruct r; reflexivity.
  - destruct (calls s i) as [|data k|] eqn:C; try discriminate. injection E as <-.
    unfold accepted, chunk. cbn. rewrite upd_eq, C. cbn. rewrite Nat.sub_diag. cbn.
    rewrite app_nil_r. reflexivity.
  - destruct (drain ts (wb s)) as [[r w]|] eqn:D; [|discriminate]. injection E as <-.
    apply drain_ok in D as (D & _). cbn [wb]. unfold accepted. cbn. rewrite app_nil_r. exact D.
  - injection E as <-. cbn. rewrite app_nil_r. reflexivity.
  - cbn in O. destruct (calls s i) eqn:C; try discriminate.
    destruct a as [n| | |]; injection E as <-; unfold accepted, chunk; cbn;
      rewrite upd_eq, C; cbn; rewrite ?O, ?app_nil_r; try reflexivity.
    rewrite Nat.sub_0_r, firstn_all. reflexivity.
  - cbn in O. injection E as <-. cbn. rewrite O, !app_nil_r. reflexivity.
Qed.

Lemma bounded (ok : state -> label -> Prop) s log : history ok s log ->
  Z.of_nat (length (buf (wb s))) < capa.
Proof.
  intros H. induction H as [sy ty|s log l s' H IH O E]; [reflexivity|].
  pose proof (per_call_history ok s log H) as P.
  unfold step in E. destruct (gone s); [discriminate|].
  destruct l as [i data|i ts1 ts2|i|ts|b|i data a|].
  - destruct (calls s i); try discriminate. injection E as <-. exact IH.
  - destruct (calls s i) as [|data k|] eqn:C; try discriminate.
    destruct (write ts1 ts2 data k (wb s)) as [[[r w] k']|] eqn:WR; [|discriminate].
    injection E as <-. destruct (P i) as [[W1 _] _]. rewrite C in W1. cbn in W1.
    apply write_ok in WR; [|exact W1]. apply WR. exact IH.
  - destruct (calls s i); try discriminate. injection E as <-. exact IH.
  - destruct (drain ts (wb s)) as [[r w]|] eqn:D; [|discriminate]. injection E as <-.
    apply drain_ok in D as (_ & _ & _ & D & _). cbn [wb]. lia.
  - injection E as <-. exact IH.
  - destruct (calls s i); try discriminate. destruct a; injection E as <-; exact IH.
  - injection E as <-. reflexivity.
Qed.

(** ** What a successful flush and a successful write-through leave behind *)

Lemma flushed ts w r w' : drain ts w = Some (r, w') ->
  r = ROk -> buf w' = [] /\ out w' = out w ++ buf w.
Proof.
  intros D R. apply drain_ok in D as (D1 & _ & _ & _ & D5).
  rewrite (D5 R), app_nil_r in D1. split; [exact (D5 R)|exact D1].
Qed.

Lemma through ts1 ts2 data w w' k : writes_through w = true ->
  write ts1 ts2 data 0 w = Some (ROk, w', k) ->
  buf w' = [] /\ out w' = out w ++ buf w ++ data.
Proof.
  intros T E. apply write_ok in E; [|lia]. destruct E as (_ & B & _ & _ & R & U & _).
  rewrite (U eq_refl T), (R eq_refl) in B. cbn [skipn] in B.
  rewrite Nat.sub_0_r, firstn_all, app_nil_r, <- app_assoc in B. auto.
Qed.

(** The kernel takes something at every turn, and no signal is pending. *)
Definition willing (t : turn) : Prop :=
  before t = false /\ exists n, ans t = Took n /\ (0 < n)%nat.

Lemma push_out_goes ts : forall data k out, (k <= length data)%nat ->
  (length data - k <= length ts)%nat -> Forall willing ts ->
  exists k' o, push_out ts data k out = Some (ROk, k', o).
Proof.
  induction ts as [|t ts IH]; intros data k out L M F; cbn [push_out].
  - cbn in M. destruct (Nat.leb_spec (length data) k); [eauto|lia].
  - destruct (Nat.leb_spec (length data) k) as [|Q]; [eauto|].
    inversion F as [|? ? (B & n & A & N) F']; subst. rewrite B, A.
    destruct (firstn n (skipn k data)) as [|b got] eqn:G.
    + exfalso. assert (X := f_equal (@length Z) G). rewrite firstn_length, skipn_length in X.
      cbn in X. lia.
    + assert (X := f_equal (@length Z) G). rewrite firstn_length, skipn_length in X.
      cbn [length] in *. apply IH; [lia| |exact F']. lia.
Qed.

Lemma drains ts w : Forall willing ts -> (length (buf w) <= length ts)%nat ->
  exists w', drain ts w = Some (ROk, w').
Proof.
  intros F L. destruct (push_out_goes ts (buf w) 0 (out w)) as (k & o & E); [lia|lia|exact F|].
  unfold drain. rewrite E. eauto.
Qed.

(** ** Traces *)

Lemma history_steps (ok : state -> label -> Prop) ls : forall s log s',
  history ok s log -> (forall s0 l, ok s0 l) -> steps s ls = Some s' ->
  exists log', history ok s' log'.
Proof.
  induction ls as [|l ls IH]; intros s log s' H O E; cbn in E.
  - injection E as <-. eauto.
  - destruct (step s l) as [s1|] eqn:S1; [|discriminate].
    eapply IH; [eapply H_step; eauto|exact O|exact E].
Qed.

(** write("a") is buffered; write_nonblock("b") goes out at once. *)
Definition overtake : list label :=
  [Start 0 [97]; Try 0 [] []; Nonblock 1 [98] (Took 1); Flush [T false (Took 9) false]].

Lemma overtaken : exists s log, history any s log /\
  accepted log = [97; 98] /\ out (wb s) = [98; 97] /\ buf (wb s) = [].
Proof.
  assert (H : history any (init false false) []) by constructor.
  eapply (H_step any _ _ (Start 0 [97])) in H; [|exact I|reflexivity].
  eapply (H_step any _ _ (Try 0 [] [])) in H; [|exact I|reflexivity].
  eapply (H_step any _ _ (Nonblock 1 [98] (Took 1))) in H; [|exact I|reflexivity].
  eapply (H_step any _ _ (Flush [T false (Took 9) false])) in H; [|exact I|reflexivity].
  eexists; eexists; split; [exact H|]. vm_compute. auto.
Qed.

(** write("a") is buffered and reported as written; the object is collected. *)
Lemma dropped : exists s log, history any s log /\
  calls s 0 = Ended [97] 1 true /\ accepted log = [97] /\ out (wb s) = [] /\ buf (wb s) = [].
Proof.
  assert (H : history any (init false false) []) by constructor.
  eapply (H_step any _ _ (Start 0 [97])) in H; [|exact I|reflexivity].
  eapply (H_step any _ _ (Try 0 [] [])) in H; [|exact I|reflexivity].
  eapply (H_step any _ _ Free) in H; [|exact I|reflexivity].
  eexists; eexists; split; [exact H|]. vm_compute. auto.
Qed.
