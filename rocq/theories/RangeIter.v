(** Iteration over the integers of a range. *)
From Coq Require Import List Bool ZArith QArith Qround Lia Lqa.
From Verif Require Import RangeModel RangeSpec RangeProofs.
Import ListNotations.
Local Open Scope Z_scope.

Lemma run_len b s n : length (run b s n) = n.
Proof. revert b; induction n; cbn; intros; [|rewrite IHn]; reflexivity. Qed.
Lemma run_in b s n z : In z (run b s n) <-> exists k, 0 <= k < Z.of_nat n /\ z = b + k * s.
Proof.
  revert b; induction n; cbn [run]; intros b.
  - cbn. split; [tauto|]. intros (k & H & _). lia.
  - cbn [In]. rewrite IHn. split.
    + intros [<-|(k & H & ->)]; [exists 0; lia|exists (k + 1); lia].
    + intros (k & H & ->). destruct (Z.eq_dec k 0) as [->|N]; [left; lia|]. right. exists (k - 1). lia.
Qed.
Lemma run_ints b n : ints b n = run b 1 n.
Proof.
  revert b; induction n; intros b; [reflexivity|]. unfold ints. cbn [seq map run]. f_equal; [lia|].
  rewrite <- IHn. unfold ints. rewrite <- seq_shift, map_map. apply map_ext. intros. lia.
Qed.
Lemma run_first b s n k : firstn k (run b s n) = run b s (Nat.min k n).
Proof. revert b n; induction k; intros b [|n]; cbn; f_equal; auto. Qed.
Lemma run_skip b s n k : skipn k (run b s n) = run (b + s * Z.of_nat (Nat.min k n)) s (n - k).
Proof.
  revert b n; induction k; intros b [|n]; cbn [skipn run Nat.min Nat.sub]; try reflexivity.
  - f_equal; [lia|]. f_equal. lia.
  - rewrite IHk. f_equal. lia.
Qed.
Lemma walk_ext fuel b s m m' o : (forall z, m z <-> m' z) -> walk fuel b s m o -> walk fuel b s m' o.
Proof. intros E. destruct o; cbn; trivial; intros [A B]; split; trivial; intros z; rewrite B || rewrite <- E; auto. Qed.
Lemma walk_cons fuel b s (m : Z -> Prop) o : m b ->
  walk fuel (b + s) s (fun z => m z /\ z <> b) o -> s <> 0 -> walk (S fuel) b s m (cons_out b o).
Proof.
  intros MB W NZ. destruct o as [l|l|]; cbn in *; trivial; destruct W as [A B].
  - split; [f_equal; exact A|]. intros z. rewrite B. destruct (Z.eq_dec b z) as [<-|N]; [tauto|]. split; [intros [?|?]; tauto|intros; right; split; congruence].
  - split; [f_equal; exact A|]. intros z [<-|H]; [trivial|]. now apply B in H.
Qed.

Lemma up_walk fuel : forall i last, walk fuel i 1 (fun z => i <= z <= last) (up fuel i last).
Proof.
  induction fuel; intros i last; cbn [up]; [cbn; split; [reflexivity|tauto]|].
  destruct (Z.leb_spec i last) as [L|L].
  - apply walk_cons; [lia| |lia]. eapply walk_ext; [|apply IHfuel]. cbn. intros. lia.
  - cbn. split; [reflexivity|]. intros; lia.
Qed.
Lemma forever_walk fuel : forall i, walk fuel i 1 (fun z => i <= z) (up_forever fuel i).
Proof.
  induction fuel; intros i; cbn [up_forever]; [cbn; split; [reflexivity|tauto]|].
  apply walk_cons; [lia| |lia]. eapply walk_ext; [|apply IHfuel]. cbn. intros. lia.
Qed.
Lemma down_walk fuel : forall i b, walk fuel i (-1) (fun z => b <= z <= i) (down fuel i b).
Proof.
  induction fuel; intros i last; cbn [down]; [cbn; split; [reflexivity|tauto]|].
  destruct (Z.leb_spec last i) as [L|L].
  - apply walk_cons; [lia| |lia]. eapply walk_ext; [|apply IHfuel]. cbn. intros. lia.
  - cbn. split; [reflexivity|]. intros; lia.
Qed.
Lemma down_forever_walk fuel : forall i, walk fuel i (-1) (fun z => z <= i) (down_forever fuel i).
Proof.
  induction fuel; intros i; cbn [down_forever]; [cbn; split; [reflexivity|tauto]|].
  apply walk_cons; [lia| |lia]. eapply walk_ext; [|apply IHfuel]. cbn. intros. lia.
Qed.
Lemma cmp_to i e (ex : bool) : (match cmp (I i) e with None => false | Some c => negb (if ex then ge c else gt c) end) = true <-> to_ok (Some e) ex (inject_Z i).
Proof.
  pose proof (cover_val_ok (mkR None (Some e) ex) (I i) _ eq_refl) as H. unfold cover_val, inside in H. cbn [beg fin excl andb from_ok] in H.
  rewrite H. tauto.
Qed.
Lemma to_down e ex z z' : z <= z' -> to_ok e ex (inject_Z z') -> to_ok e ex (inject_Z z).
Proof.
  intros L. rewrite Zle_Qle in L. destruct e as [[]|]; cbn; trivial; destruct ex; intros; lra.
Qed.
Lemma cmp_eq_top i e z : cmp (I i) e = Some Eq -> to_ok (Some e) false (inject_Z z) -> z <= i.
Proof.
  destruct e as [a|q|n|]; cbn; intros C T; try discriminate.
  - injection C as C. apply Z.compare_eq in C. subst. now rewrite Zle_Qle.
  - injection C as C. apply Qeq_alt in C. rewrite Zle_Qle. lra.
  - destruct n; discriminate.
Qed.
Lemma up_cmp_walk fuel : forall i e ex, walk fuel i 1 (fun z => i <= z /\ to_ok (Some e) ex (inject_Z z)) (up_cmp fuel i e ex).
Proof.
  induction fuel; intros i e ex; cbn [up_cmp]; [cbn; split; [reflexivity|tauto]|].
  pose proof (cmp_to i e ex) as T.
  assert (STOP : ~ to_ok (Some e) ex (inject_Z i) -> walk (S fuel) i 1 (fun z => i <= z /\ to_ok (Some e) ex (inject_Z z)) (Done [])).
  { intros N. cbn [walk length run]. split; [reflexivity|]. intros z. split; [intros []|]. intros [L H]. destruct N. exact (to_down _ _ _ _ L H). }
  destruct (cmp (I i) e) as [c|] eqn:C; [|apply STOP; rewrite <- T; discriminate].
  destruct (if ex then ge c else gt c) eqn:G; [apply STOP; rewrite <- T; discriminate|].
  assert (IN : to_ok (Some e) ex (inject_Z i)) by (apply T; reflexivity).
  apply walk_cons; [split; [lia|exact IN]| |lia].
  destruct (negb ex && match c with Eq => true | _ => false end) eqn:X.
  - apply andb_prop in X as [X1 X2]. destruct ex; [discriminate|]. destruct c; try discriminate. cbn [walk length run]. split; [reflexivity|].
    intros z. split; [intros []|]. intros [[L H] N]. pose proof (cmp_eq_top _ _ _ C H). lia.
  - eapply walk_ext; [|apply IHfuel]. cbn beta. intros z. split; [intros [A B]|intros [[A B] N]]; (split; [|trivial] || split); try lia; trivial. split; [lia|trivial].
Qed.

Theorem each_ok fuel r b : beg r = Some (I b) -> walk fuel b 1 (has r) (each fuel r).
Proof.
  intros B. unfold each, has, inside. rewrite B.
  assert (FR : forall z, from_ok (Some (I b)) (inject_Z z) <-> b <= z) by (intros; cbn; now rewrite Zle_Qle).
  destruct (fin r) as [[e|q|n|]|].
  - eapply walk_ext; [|apply up_walk]. intros z. cbn beta. rewrite FR. cbn [to_ok]. destruct (excl r); rewrite <- ?Zlt_Qlt, <- ?Zle_Qle; lia.
  - eapply walk_ext; [|apply up_cmp_walk]. intros z. cbn beta. rewrite FR. tauto.
  - eapply walk_ext; [|apply up_cmp_walk]. intros z. cbn beta. rewrite FR. tauto.
  - eapply walk_ext; [|apply up_cmp_walk]. intros z. cbn beta. rewrite FR. tauto.
  - eapply walk_ext; [|apply forever_walk]. intros z. cbn beta. rewrite FR. cbn. tauto.
Qed.
(** A walk upwards in a bounded set ends. *)
Lemma walk_ends b s member (f : nat -> out) m : s <> 0 -> (forall fuel, walk fuel b s member (f fuel)) -> (forall z, member z -> s * (z - m) <= 0) ->
  exists fuel l, f fuel = Done l.
Proof.
  intros NZ W M. set (n := S (Z.to_nat (Z.abs (m - b) + 1))). exists n. specialize (W n). destruct (f n) as [l|l|]; [eauto| |destruct W].
  exfalso. destruct W as [E A]. specialize (M (b + (Z.abs (m - b) + 1) * s)). rewrite E in A.
  assert (member (b + (Z.abs (m - b) + 1) * s)) as H by (apply A, run_in; exists (Z.abs (m - b) + 1); subst n; split; [lia|reflexivity]).
  apply M in H. destruct (Z.lt_trichotomy s 0) as [L|[L|L]]; [nia|lia|nia].
Qed.
Theorem each_ends r b : beg r = Some (I b) -> bounded r -> exists fuel l, each fuel r = Done l.
Proof.
  intros B (m & M). apply (walk_ends b 1 (has r) (fun f => each f r) m); [lia|intros; now apply each_ok|]. intros z H. specialize (M z H). lia.
Qed.
Theorem each_endless r b : beg r = Some (I b) -> ~ bounded r -> forall fuel, exists l, each fuel r = More l.
Proof.
  intros B N fuel. pose proof (each_ok fuel r b B) as W. destruct (each fuel r) as [l|l|]; [|eauto|destruct W].
  exfalso. apply N. destruct W as [E A]. exists (b + Z.of_nat (length l)). intros z H. apply A in H. rewrite E in H. apply run_in in H as (k & K & ->). lia.
Qed.
Lemma qfloor_to q z : (inject_Z z <= q)%Q -> z <= Qfloor q.
Proof. intros H. rewrite <- (Qfloor_Z z). now apply Qfloor_resp_le. Qed.
Theorem reverse_ok fuel r : (beg r = None \/ exists b, beg r = Some (I b)) -> ((exists e, fin r = Some (I e)) \/ exists q, fin r = Some (F q)) ->
  exists top, walk fuel top (-1) (has r) (reverse_each fuel r).
Proof.
  intros B E. unfold reverse_each.
  assert (T : exists top, (forall z, to_ok (fin r) (excl r) (inject_Z z) <-> z <= top) /\
     reverse_each fuel r = match beg r with None => down_forever fuel top | Some (I b) => down fuel top b | _ => Raise end).
  { unfold reverse_each. destruct E as [(e & ->)|(q & ->)].
    - eexists. split; [|reflexivity]. intros z. cbn. destruct (excl r); rewrite <- ?Zlt_Qlt, <- ?Zle_Qle; lia.
    - eexists. split; [|reflexivity]. intros z. cbn [to_ok]. pose proof (Qfloor_le q) as L. destruct (excl r); cbn [andb].
      + destruct (Qeq_bool q (inject_Z (Qfloor q))) eqn:X.
        * apply Qeq_bool_iff in X. split; intros H.
          { assert (z < Qfloor q) by (rewrite Zlt_Qlt; lra). lia. }
          { assert (z < Qfloor q) as K by lia. rewrite Zlt_Qlt in K. lra. }
        * assert (~ (q == inject_Z (Qfloor q))%Q) as X' by (intros K; apply Qeq_bool_iff in K; congruence). split; intros H.
          { apply qfloor_to. lra. }
          { rewrite Zle_Qle in H. destruct (Qlt_le_dec (inject_Z z) q); [trivial|]. destruct X'. lra. }
      + split; intros H; [now apply qfloor_to|]. rewrite Zle_Qle in H. lra. }
  destruct T as (top & T & EQ). exists top. unfold reverse_each in EQ. rewrite EQ. destruct B as [B|(b & B)]; rewrite B.
  - eapply walk_ext; [|apply down_forever_walk]. intros z. unfold has, inside. rewrite B, T. cbn. tauto.
  - eapply walk_ext; [|apply down_walk]. intros z. unfold has, inside. rewrite B, T. cbn. rewrite <- Zle_Qle. lia.
Qed.
Lemma run_rev b n : rev (run b 1 n) = run (b + Z.of_nat n - 1) (-1) n.
Proof.
  revert b; induction n; intros b; [reflexivity|]. cbn [run rev]. rewrite IHn. clear IHn.
  replace (b + 1 + Z.of_nat n - 1) with (b + Z.of_nat n) by lia.
  replace (b + Z.of_nat (S n) - 1) with (b + Z.of_nat n) by lia.
  assert (G : forall m c, run c (-1) m ++ [c - Z.of_nat m] = run c (-1) (S m)).
  { induction m; intros c; [cbn; f_equal; lia|]. cbn [run app] in *. f_equal. rewrite <- IHm. f_equal. f_equal. lia. }
  etransitivity; [|apply (G n (b + Z.of_nat n))]. f_equal. f_equal. lia.
Qed.
Theorem reverse_is_reverse r f f' l l' : ((exists e, fin r = Some (I e)) \/ exists q, fin r = Some (F q)) ->
  each f r = Done l -> reverse_each f' r = Done l' -> l' = rev l.
Proof.
  intros E EA RE.
  assert (B : exists b, beg r = Some (I b)) by (unfold each in EA; destruct (beg r) as [[]|]; try discriminate; eauto). destruct B as (b & B).
  pose proof (each_ok f r b B) as W. rewrite EA in W. destruct (reverse_ok f' r (or_intror (ex_intro _ b B)) E) as (top & W'). rewrite RE in W'.
  destruct W as [L A], W' as [L' A'].
  assert (SAME : forall z, In z (run b 1 (length l)) <-> In z (run top (-1) (length l'))) by (intros; rewrite <- L, <- L', A, A'; tauto).
  rewrite L', L, run_rev. clear L L' A A' EA RE. generalize dependent (length l'). generalize (length l). intros n m SAME.
  setoid_rewrite run_in in SAME.
  destruct n as [|n], m as [|m]; try reflexivity.
  - destruct (proj2 (SAME top)) as (k & K & _); [exists 0|]; lia.
  - destruct (proj1 (SAME b)) as (k & K & _); [exists 0|]; lia.
  - destruct (proj2 (SAME top)) as (k1 & K1 & E1); [exists 0; lia|].
    destruct (proj1 (SAME b)) as (k2 & K2 & E2); [exists 0; lia|].
    destruct (proj1 (SAME (b + Z.of_nat n))) as (k3 & K3 & E3); [exists (Z.of_nat n); lia|].
    destruct (proj2 (SAME (top - Z.of_nat m))) as (k4 & K4 & E4); [exists (Z.of_nat m); lia|].
    assert (n = m) as -> by lia. f_equal. lia.
Qed.
Theorem reverse_ends r : (exists b, beg r = Some (I b)) -> ((exists e, fin r = Some (I e)) \/ exists q, fin r = Some (F q)) -> exists fuel l, reverse_each fuel r = Done l.
Proof.
  intros (b & B) E.
  assert (T : exists top, forall fuel, reverse_each fuel r = down fuel top b) by
    (unfold reverse_each; rewrite B; destruct E as [(e & ->)|(q & ->)]; eexists; reflexivity).
  destruct T as (top & T). destruct (walk_ends top (-1) _ (fun f => down f top b) b ltac:(lia) (fun f => down_walk f top b)) as (fuel & l & H).
  - cbn beta. intros. lia.
  - exists fuel, l. now rewrite T.
Qed.

Lemma done_len f r b l n : beg r = Some (I b) -> each f r = Done l -> (forall z, has r z <-> b <= z < b + n) -> 0 <= n -> l = run b 1 (Z.to_nat n).
Proof.
  intros B E H N. pose proof (each_ok f r b B) as W. rewrite E in W. destruct W as [L A].
  assert (SAME : forall z, In z (run b 1 (length l)) <-> b <= z < b + n) by (intros; rewrite <- L, A; apply H).
  setoid_rewrite run_in in SAME. rewrite L. f_equal. clear L A E.
  assert (Z.of_nat (length l) <= n).
  { destruct (length l) as [|k]; [lia|]. destruct (proj1 (SAME (b + Z.of_nat k))) as [_ X]; [exists (Z.of_nat k); lia|]. lia. }
  destruct (Z.eq_dec n 0) as [->|NZ]; [lia|].
  destruct (proj2 (SAME (b + n - 1))) as (k & K & X); [lia|]. lia.
Qed.
Lemma has_ints r b e : beg r = Some (I b) -> fin r = Some (I e) -> forall z, has r z <-> b <= z < (if excl r then e else e + 1).
Proof. intros B E z. unfold has, inside. rewrite B, E. cbn. destruct (excl r); rewrite <- ?Zlt_Qlt, <- ?Zle_Qle; lia. Qed.
Theorem ints_done r b e : beg r = Some (I b) -> fin r = Some (I e) ->
  exists fuel, each fuel r = Done (run b 1 (Z.to_nat ((if excl r then e else e + 1) - b))).
Proof.
  intros B E. pose proof (has_ints r b e B E) as H. destruct (each_ends r b B) as (fuel & l & D).
  { exists (e + 1). intros z K. apply H in K. destruct (excl r); lia. }
  exists fuel. rewrite D. f_equal. destruct (Z_le_dec b (if excl r then e else e + 1)).
  - apply (done_len fuel r b l _ B D); [|lia]. intros z. rewrite H. lia.
  - rewrite (done_len fuel r b l 0 B D); [|intros z; rewrite H; lia|lia]. f_equal. lia.
Qed.
Theorem size_ok r n : size r = Val (Some n) -> exists fuel l, each fuel r = Done l /\ Z.of_nat (length l) = n.
Proof.
  unfold size. destruct (beg r) as [[b| | |]|] eqn:B; try discriminate. destruct (fin r) as [[e| |[]|]|] eqn:E; try discriminate; intros H; injection H as <-.
  - destruct (ints_done r b e B E) as (fuel & D). exists fuel. eexists. split; [exact D|]. rewrite run_len. destruct (Z.ltb_spec (e - b) 0); destruct (excl r); lia.
  - exists 1%nat, []. split; [|reflexivity]. unfold each. rewrite B, E. cbn. destruct (excl r); reflexivity.
Qed.
Theorem size_infinite r : size r = Val None -> forall fuel, exists l, each fuel r = More l.
Proof.
  unfold size. destruct (beg r) as [[b| | |]|] eqn:B; try discriminate. intros H. apply (each_endless r b B).
  intros (m & M). specialize (M (Z.max b (m + 1))). assert (has r (Z.max b (m + 1))) as K; [|apply M in K; lia].
  unfold has, inside. rewrite B. split; [cbn; rewrite <- Zle_Qle; lia|]. destruct (fin r) as [[e| |[]|]|]; try discriminate; cbn; trivial.
Qed.
Lemma fix_cases r b e' : try_fixnum r = Some (b, e') -> exists e, beg r = Some (I b) /\ fin r = Some (I e) /\ e' = if excl r then e else e + 1.
Proof.
  unfold try_fixnum. destruct (beg r) as [[]|], (fin r) as [[]|]; try discriminate. destruct (small _ && small _); [|discriminate]. intros H. injection H as <- <-. eauto.
Qed.
Theorem elements_ok r l : elements r = Val l -> exists fuel, each fuel r = Done l.
Proof.
  unfold elements. destruct (try_fixnum r) as [[b e']|] eqn:T; [|discriminate]. intros H. injection H as <-.
  destruct (fix_cases _ _ _ T) as (e & B & E & ->). rewrite run_ints. now apply ints_done.
Qed.
Theorem elements_fix r b e : beg r = Some (I b) -> fin r = Some (I e) -> small b = true -> small e = true -> exists l, elements r = Val l.
Proof. intros B E SB SE. unfold elements, try_fixnum. rewrite B, E, SB, SE. cbn. eauto. Qed.
Theorem count_ok r n : count r = Val (Some n) -> exists fuel l, each fuel r = Done l /\ Z.of_nat (length l) = n.
Proof.
  unfold count. destruct (try_fixnum r) as [[b e']|] eqn:T; [|destruct (beg r), (fin r); discriminate].
  destruct (fix_cases _ _ _ T) as (e & B & E & ->). rewrite B, E. intros H. injection H as <-.
  destruct (ints_done r b e B E) as (fuel & D). exists fuel. eexists. split; [exact D|]. rewrite run_len.
  destruct (Z.ltb_spec b (if excl r then e else e + 1)); lia.
Qed.
Theorem last_ok r n l : last r n = Val l -> exists fuel l0, each fuel r = Done (l0 ++ l) /\ length l = Nat.min (Z.to_nat n) (length (l0 ++ l)).
Proof.
  unfold last. destruct (fin r) eqn:F; [|discriminate]. destruct (Z.ltb_spec n 0); [discriminate|].
  destruct (try_fixnum r) as [[b e']|] eqn:T; [|discriminate]. destruct (fix_cases _ _ _ T) as (e & B & E & X). rewrite run_ints. intros L. injection L as <-.
  destruct (ints_done r b e B E) as (fuel & D). rewrite <- X in D. exists fuel.
  exists (firstn (Z.to_nat (if Z.max (e' - b) 0 <=? n then 0 else Z.max (e' - b) 0 - n)) (run b 1 (Z.to_nat (e' - b)))). rewrite firstn_skipn. split; [exact D|].
  rewrite run_skip, !run_len. destruct (Z.leb_spec (Z.max (e' - b) 0) n); lia.
Qed.
Theorem first_ok r n l : first r n = Val l -> exists fuel, l = firstn (Z.to_nat n) (yields (each fuel r)) /\
  (Z.of_nat (length l) < n -> exists l', each fuel r = Done l').
Proof.
  unfold first. destruct (beg r) eqn:BR; [|discriminate]. destruct (Z.ltb_spec n 0); [discriminate|].
  destruct (try_fixnum r) as [[b e']|] eqn:T.
  - destruct (fix_cases _ _ _ T) as (e & B & E & X). rewrite run_ints. intros L. injection L as <-.
    destruct (ints_done r b e B E) as (fuel & D). exists fuel. rewrite D, X. split; [reflexivity|]. eauto.
  - destruct (Z.eqb_spec n 0) as [->|NZ].
    + intros L. injection L as <-. exists 0%nat. split; [reflexivity|]. cbn. lia.
    + intros L. exists (Z.to_nat n).
      assert (Y : exists b, beg r = Some (I b)) by (unfold each in L; rewrite BR in *; destruct n0; try discriminate; eauto).
      destruct Y as (b & B). pose proof (each_ok (Z.to_nat n) r b B) as W. unfold yields in *. destruct (each (Z.to_nat n) r) as [l'|l'|] eqn:EA; [| |discriminate].
      * injection L as <-. split; [|eauto]. symmetry. apply firstn_all2.
        assert (G : forall f, match each f r with Done l => (length l <= f)%nat | _ => True end).
        { clear. intros f. unfold each. destruct (beg r) as [[i| | |]|]; trivial. 
          assert (U : forall f i last, match up f i last with Done l => (length l <= f)%nat | _ => True end).
          { induction f0; cbn; trivial. intros j last. specialize (IHf0 (j + 1) last). destruct (j <=? last); [|cbn; lia]. destruct (up f0 (j + 1) last); cbn; trivial. lia. }
          assert (V : forall f i e ex, match up_cmp f i e ex with Done l => (length l <= f)%nat | _ => True end).
          { induction f0; [cbn; trivial|]. intros j e ex. cbn [up_cmp]. specialize (IHf0 (j + 1) e ex). destruct (cmp (I j) e) as [c|]; [|cbn; lia]. destruct (if ex then ge c else gt c); [cbn; lia|].
            destruct (negb ex && match c with Eq => true | _ => false end); [cbn; lia|]. destruct (up_cmp f0 (j + 1) e ex); cbn; trivial. lia. }
          assert (X : forall f i, match up_forever f i with Done l => (length l <= f)%nat | _ => True end).
          { induction f0; cbn; trivial. intros j. specialize (IHf0 (j + 1)). destruct (up_forever f0 (j + 1)); cbn; trivial. lia. }
          destruct (fin r) as [[]|]; [apply U|apply V|apply V|apply V|apply X]. }
        specialize (G (Z.to_nat n)). rewrite EA in G. exact G.
      * injection L as <-. destruct W as [E _]. rewrite E, run_len. split; [|lia]. rewrite run_first. f_equal. lia.
Qed.
Theorem first_total r b n : beg r = Some (I b) -> 0 <= n -> exists l, first r n = Val l.
Proof.
  intros B N. unfold first. rewrite B. destruct (Z.ltb_spec n 0); [lia|]. destruct (try_fixnum r) as [[]|]; [eauto|]. destruct (n =? 0); [eauto|].
  pose proof (each_ok (Z.to_nat n) r b B) as W. destruct (each (Z.to_nat n) r); [eauto|eauto|destruct W].
Qed.
(** max(n): the n greatest *)
Theorem max_n_ok fuel r n l e : (beg r = None \/ exists b, beg r = Some (I b)) -> fin r = Some (I e) -> max_n fuel r n = Done l ->
  (Z.of_nat (length l) <= n) /\ (exists top, l = run top (-1) (length l)) /\ (forall z, In z l -> has r z) /\
  (forall z, has r z -> ~ In z l -> Z.of_nat (length l) = n /\ forall y, In y l -> z < y).
Proof.
  intros B E. unfold max_n. rewrite E. destruct (Z.ltb_spec n 0) as [|N]; [discriminate|].
  set (hi := if excl r then e - 1 else e). 
  assert (TO : forall z, to_ok (fin r) (excl r) (inject_Z z) <-> z <= hi) by (intros; rewrite E; subst hi; cbn; destruct (excl r); rewrite <- ?Zlt_Qlt, <- ?Zle_Qle; lia).
  assert (DN : forall lo, hi - n + 1 <= lo -> down fuel hi lo = Done l -> (forall z, has r z -> z < lo -> lo = hi - n + 1 /\ lo <= hi + 1) -> (forall z, lo <= z <= hi -> has r z) ->
     (Z.of_nat (length l) <= n) /\ (exists top, l = run top (-1) (length l)) /\ (forall z, In z l -> has r z) /\
     (forall z, has r z -> ~ In z l -> Z.of_nat (length l) = n /\ forall y, In y l -> z < y)).
  { intros lo L D OUT IN. pose proof (down_walk fuel hi lo) as W. rewrite D in W. destruct W as [R A].
    assert (LEN : Z.of_nat (length l) = Z.max 0 (hi - lo + 1)).
    { assert (SAME : forall z, In z (run hi (-1) (length l)) <-> lo <= z <= hi) by (intros; rewrite <- R; apply A). setoid_rewrite run_in in SAME.
      destruct (Z_le_dec lo hi).
      - destruct (proj2 (SAME lo)) as (k & K & X); [lia|]. destruct (length l) as [|m]; [lia|].
        destruct (proj1 (SAME (hi - Z.of_nat m))) as [Y _]; [exists (Z.of_nat m); lia|]. lia.
      - destruct (length l) as [|m]; [lia|]. destruct (proj1 (SAME hi)); [exists 0; lia|]. lia. }
    split; [lia|]. split; [now exists hi|]. split; [intros z H; apply IN, A, H|].
    intros z H NI. assert (z < lo).
    { destruct (Z_lt_dec z lo); [trivial|]. destruct NI. apply A. destruct H as [_ H]. apply TO in H. lia. }
    destruct (OUT z H H0) as [-> X]. split; [lia|]. intros y Y. apply A in Y. lia. }
  destruct B as [B|(b & B)]; rewrite B.
  - intros D. apply (DN _ (Z.le_refl _) D); [intros; lia|]. intros z Hz. split; [rewrite B; exact Logic.I|apply TO; lia].
  - pose proof (has_ints r b e B E) as HI. cbn [cmp]. destruct (Z.compare_spec b hi) as [C|C|C]; intros D;
      (apply (DN _) in D; [exact D|destruct (Z.ltb_spec (hi - n + 1) b); lia
        |intros z H1 H2; apply HI in H1; destruct (Z.ltb_spec (hi - n + 1) b); lia
        |intros z H1; apply HI; subst hi; destruct (excl r), (Z.ltb_spec (e - n + 1) b), (Z.ltb_spec (e - 1 - n + 1) b); lia]) ||
      (injection D as <-; split; [cbn; lia|]; split; [exists 0; reflexivity|]; split; [intros z []|]; intros z H; apply HI in H; subst hi; destruct (excl r); lia).
Qed.
Theorem stepping_ok fuel : forall i e s (ex : bool), s <> 0 ->
  walk fuel i s (fun z => (exists k, 0 <= k /\ z = i + k * s) /\ if 0 <? s then (if ex then z < e else z <= e) else (if ex then e < z else e <= z)) (stepping fuel i e s ex).
Proof.
  induction fuel; intros i e s ex NZ; cbn [stepping]; [cbn; split; [reflexivity|tauto]|].
  destruct (if 0 <? s then if ex then i <? e else i <=? e else if ex then e <? i else e <=? i) eqn:G.
  - apply walk_cons; [|eapply walk_ext; [|apply IHfuel, NZ]|exact NZ].
    + split; [exists 0; lia|]. destruct (0 <? s), ex; lia.
    + intros z. cbn beta. split.
      * intros [(k & K & ->) T]. split; [split; [exists (k + 1); lia|exact T]|]. nia.
      * intros [[(k & K & ->) T] N]. split; [|exact T]. exists (k - 1). assert (k <> 0) by (intros ->; lia). lia.
  - cbn [walk length run]. split; [reflexivity|]. intros z. split; [intros []|]. intros [(k & K & ->) T]. destruct (Z.ltb_spec 0 s), ex; nia.
Qed.
(** min and max *)
Theorem min_ok r : finite r = true -> match min r with
  | Val m => exists x, value m = Some x /\ inside r x /\ forall y, inside r y -> (x <= y)%Q
  | Nil => ~ inhabited r
  | Err => beg r = None
  end.
Proof.
  intros H. unfold min, inside, inhabited, inside. ends r H; cbn [beg fin excl]; vals; trivial.
  - eexists. split; [eassumption|]. vals. split; [split; lraq|]. intros y. vals. tauto.
  - splits; destruct ex; try (intros (y & A & B); revert A B; vals; intros; lra); eexists; (split; [eassumption|]); vals; (split; [split; lraq|]); intros y; vals; tauto.
Qed.
Theorem max_closed_ok r : finite r = true -> excl r = false -> match max r with
  | Val m => exists x, value m = Some x /\ inside r x /\ forall y, inside r y -> (y <= x)%Q
  | Nil => ~ inhabited r
  | Err => fin r = None
  end.
Proof.
  intros H X. unfold max, inside, inhabited, inside. ends r H; cbn [beg fin excl] in *; subst ex; vals; trivial.
  - eexists. split; [eassumption|]. vals. split; [split; lraq|]. intros y. vals. tauto.
  - splits; try (intros (y & A & B); revert A B; vals; intros; lra); eexists; (split; [eassumption|]); vals; (split; [split; lraq|]); intros y; vals; tauto.
Qed.
Theorem max_open_ok r e : (beg r = None \/ exists b, beg r = Some (I b)) -> fin r = Some (I e) -> excl r = true -> match max r with
  | Val m => exists z, m = I z /\ has r z /\ forall y, has r y -> y <= z
  | Nil => forall z, ~ has r z
  | Err => False
  end.
Proof.
  intros B E X. assert (TO : forall z, to_ok (fin r) (excl r) (inject_Z z) <-> z < e) by (intros; rewrite E, X; cbn; now rewrite Zlt_Qlt).
  unfold max. rewrite E, X. destruct B as [B|(b & B)]; rewrite B.
  - exists (e - 1). split; [reflexivity|]. unfold has, inside. rewrite B. split; [split; [exact Logic.I|apply TO; lia]|]. intros y [_ Y]. apply TO in Y. lia.
  - pose proof (has_ints r b e B E) as HI. rewrite X in HI. cbn [cmp]. destruct (Z.compare_spec b e) as [C|C|C].
    + intros z H. apply HI in H. lia.
    + exists (e - 1). split; [reflexivity|]. split; [apply HI; lia|]. intros y H. apply HI in H. lia.
    + intros z H. apply HI in H. lia.
Qed.
