(** * Proofs for C30 *)
From Coq Require Import List Bool Arith Lia.
From Verif Require Import TimerModel TimerSpec.
Import ListNotations.

Lemma alive_when_needed s : history no_race s -> 2 <= live s ->
  stop s = false /\ (checking s = false -> alive s).
Proof.
  intros H. induction H as [|s l s' H IH [O1 O2] E]; [cbn; lia|].
  unfold alive in *. destruct s as [lv st t ck tk]. destruct l; cbn in *; intros L.
  - destruct ck; [discriminate|]. unfold count in E. cbn in E.
    destruct lv as [|lv]; cbn in E; injection E as <-; cbn in *; [lia|]. split; easy.
  - destruct ck; [discriminate|]. destruct lv as [|[|lv]]; try discriminate. unfold count in E.
    destruct (Nat.leb_spec 2 (S lv)); injection E as <-; cbn in *; [split; easy|lia].
  - destruct ck; [|discriminate]. injection E as <-. cbn in *. destruct (IH L) as [A B]. split; [easy|].
    intros _. split; [easy|]. specialize (O2 eq_refl). 
    destruct t; cbn; try tauto.
    exfalso. clear - H. remember (T_ lv st Orphan true tk) as s eqn:Q.
    assert (tm s <> Orphan). 
    { clear Q. induction H as [|s l s' H IH [O1 O2] E]; [easy|]. 
      destruct s as [lv' st' t' ck' tk']. destruct l; cbn in *; try easy.
      - destruct ck'; [discriminate|]. unfold count in E. cbn in E. destruct lv'; injection E as <-; easy.
      - destruct ck'; [discriminate|]. destruct lv' as [|[|lv']]; try discriminate. unfold count in E.
        destruct (Nat.leb _ _); injection E as <-; easy.
      - destruct ck'; [|discriminate]. injection E as <-. cbn. destruct t'; cbn; easy.
      - destruct t'; try discriminate; injection E as <-; cbn; try easy. destruct st'; easy. }
    subst s. cbn in *. congruence.
  - destruct t; try discriminate; injection E as <-; cbn in *; destruct (IH L) as [A B]; (split; [easy|]);
      intros C; specialize (B C); destruct B as [_ B]; (split; [easy|]); rewrite ?A; tauto || (destruct B as [B|[B|B]]; discriminate).
  - easy.
Qed.

(** Left alone, it ticks. *)
Lemma alive_ticks s : alive s -> exists k s', k <= 3 /\ steps s (repeat Timer k) = Some s' /\ ticks s' = S (ticks s) /\ alive s'.
Proof.
  intros (S0 & T). destruct s as [lv st t ck tk]. cbn in *. subst st. unfold alive.
  destruct T as [T|[T|T]]; subst t; [exists 3|exists 2|exists 1]; eexists; (split; [lia|]); (split; [reflexivity|]); cbn; auto.
Qed.
(** One thread: the timer ticks at most once more. *)
Lemma stops s : stop s = true -> forall k s', steps s (repeat Timer k) = Some s' ->
  ticks s' <= S (ticks s) /\ (tm s <> Ticking -> ticks s' = ticks s).
Proof.
  intros S0. assert (A : forall k s s', stop s = true -> tm s <> Ticking -> steps s (repeat Timer k) = Some s' -> ticks s' = ticks s).
  { induction k as [|k IH]; intros r r' Q N E; cbn in E; [now injection E as <-|].
    destruct r as [lv st t ck tk]; cbn in *; subst st.
    destruct t; try discriminate; try easy; apply IH in E; cbn in *; try easy. }
  intros [|k] s' E; [injection E as <-; split; [lia|easy]|].
  destruct (tm s) eqn:T; try (split; [rewrite (A (S k) s s' S0); [lia|congruence|exact E] | intros; apply (A (S k)); auto; congruence]).
  split; [|easy]. cbn in E. rewrite T in E. cbn in E. apply A in E; cbn in *; [lia|easy|easy].
Qed.
Lemma one_thread ok s : history ok s -> live s = 1 -> (forall s l, ok s l -> l <> Fork) -> stop s = true \/ tm s = NoTimer.
Proof.
  intros H L O. revert L. induction H as [|s l s' H IH O1 E]; [now right|].
  destruct s as [lv st t ck tk]. destruct l; cbn in *; intros L.
  - destruct ck; [discriminate|]. unfold count in E. cbn in E. destruct lv; injection E as <-; cbn in *; [now left|lia].
  - destruct ck; [discriminate|]. destruct lv as [|[|lv]]; try discriminate. unfold count in E.
    destruct (Nat.leb_spec 2 (S lv)); injection E as <-; cbn in *; [lia|now left].
  - destruct ck; [|discriminate]. injection E as <-. cbn in *.
    (* checking means two or more threads *)
    exfalso. remember (T_ lv st t true tk) as s eqn:Q.
    assert (checking s = true -> 2 <= live s).
    { clear - H O. induction H as [|s l s' H IH O1 E]; [easy|].
      destruct s as [lv' st' t' ck' tk']. destruct l; cbn in *.
      - destruct ck'; [discriminate|]. unfold count in E. cbn in E. destruct lv'; injection E as <-; cbn; intros; [discriminate|lia].
      - destruct ck'; [discriminate|]. destruct lv' as [|[|lv']]; try discriminate. unfold count in E.
        destruct (Nat.leb_spec 2 (S lv')); injection E as <-; cbn; intros; [lia|discriminate].
      - destruct ck'; [|discriminate]. injection E as <-. easy.
      - destruct t'; try discriminate; injection E as <-; cbn in *; auto.
      - now apply O in O1. }
    subst s. cbn in *. specialize (H0 eq_refl). lia.
  - destruct t; try discriminate; injection E as <-; cbn in *; specialize (IH L); destruct IH as [IH|IH]; try discriminate; now left.
  - now apply O in O1.
Qed.

Lemma history_steps (ok : state -> label -> Prop) ls : forall s s', history ok s ->
  (forall l s, In l ls -> ok s l) -> steps s ls = Some s' -> history ok s'.
Proof.
  induction ls as [|l ls IH]; intros s s' H O E; cbn in *; [congruence|].
  destruct (step s l) eqn:Q; [|discriminate]. eapply IH; [|intros; apply O; now right|exact E]. econstructor; eauto.
Qed.

(** The old timer reads `stop` just before the next thread is spawned. *)
Definition race : list label := [Spawn; Check; Timer; Die; Timer; Spawn; Check; Timer].
Lemma race_bad : exists s, history no_fork s /\ live s = 2 /\ checking s = false /\ dead s.
Proof.
  exists (T_ 2 false Finished false 0). split; [|split; [reflexivity|split; [reflexivity|]]].
  - apply (history_steps no_fork race init); [constructor| |reflexivity].
    intros l s I. unfold race in I. cbn in I. unfold no_fork. intuition congruence.
  - intros [|k] s' E; cbn in E; [now injection E as <-|discriminate].
Qed.
(** A process with two threads forks; the child spawns as many threads as it likes. *)
Definition fork_child (n : nat) : list label := [Spawn; Check; Fork] ++ concat (repeat [Spawn; Check] n).
Lemma steps_app s a b : steps s (a ++ b) = match steps s a with Some s' => steps s' b | None => None end.
Proof. revert s. induction a as [|l a IH]; intros s; cbn; [reflexivity|]. destruct (step s l); auto. Qed.
Lemma fork_bad n : exists s, history any_step s /\ live s = S n /\ checking s = false /\ dead s.
Proof.
  exists (T_ (S n) false Orphan false 0). split; [|split; [reflexivity|split; [reflexivity|]]].
  - apply (history_steps any_step (fork_child n) init); [constructor|easy|].
    unfold fork_child. rewrite steps_app. cbn [steps step init checking live count Nat.leb running tm stop ticks].
    assert (G : forall k m, steps (T_ (S m) false Orphan false 0) (concat (repeat [Spawn; Check] k)) = Some (T_ (S (k + m)) false Orphan false 0)).
    { induction k as [|k IH]; intros m; [reflexivity|]. cbn [repeat concat app steps step checking live].
      unfold count. cbn [Nat.leb tm ticks live step checking stop running steps]. rewrite IH. do 2 f_equal. lia. }
    cbn. rewrite (G n 0). now rewrite Nat.add_0_r.
  - intros [|k] s' E; cbn in E; [now injection E as <-|discriminate].
Qed.
(** The child even stays without a timer if all its threads end and others come. *)
Lemma orphan_forever s : tm s = Orphan -> forall ls s', steps s ls = Some s' -> tm s' = Orphan /\ ticks s' = ticks s.
Proof.
  intros Q ls. revert s Q. induction ls as [|l ls IH]; intros s Q s' E; cbn in E; [now injection E as <-|].
  destruct (step s l) as [r|] eqn:ST; [|discriminate].
  assert (A : tm r = Orphan /\ ticks r = ticks s).
  { destruct s as [lv st t ck tk]. cbn in Q. subst t. destruct l; cbn in ST; try discriminate.
    - destruct ck; [discriminate|]. unfold count in ST. cbn in ST. destruct lv; injection ST as <-; easy.
    - destruct ck; [discriminate|]. destruct lv as [|[|lv]]; try discriminate. unfold count in ST.
      destruct (Nat.leb _ _); injection ST as <-; easy.
    - destruct ck; [|discriminate]. injection ST as <-. easy.
    - destruct ck; [discriminate|]. injection ST as <-. easy. }
  destruct A as [A1 A2]. destruct (IH r A1 s' E) as [B1 B2]. split; [easy|congruence].
Qed.
Lemma no_timer_ticks s k s' : tm s = NoTimer -> steps s (repeat Timer k) = Some s' -> ticks s' <= S (ticks s).
Proof. intros T E. destruct k; cbn in E; [injection E as <-; lia|]. now rewrite T in E. Qed.
