(** Proofs about Monitor. *)
From Coq Require Import ZArith List Bool Lia.
From Verif Require Import MonModel MonSpec.
Import ListNotations.
Local Open Scope Z_scope.

Lemma mon_eta (s : mon) : mkM (owner s) (count s) = s.
Proof. destruct s. reflexivity. Qed.

(** A call that does not have to wait in Ruby does the same here. *)
Lemma step_ruby s t o s' x : fine s -> o <> Wait -> ruby_step s t o = Some (s', x) ->
  fine s' /\ fst (step s t o) = s' /\ agree x (snd (step s t o)).
Proof.
  unfold fine, agree. intros F W E. destruct s as [[u|] c]; cbn in F.
  - destruct o; cbn in E |- *; unfold owns in *; cbn [owner] in *; destruct (Nat.eqb_spec u t) as [->|N];
      try discriminate E; try (exfalso; apply W; reflexivity); try injection E as <- <-; cbn.
    + auto with zarith.
    + auto with zarith.
    + auto.
    + destruct (Z.ltb_spec 0 c); [|lia]. cbn. destruct (Z.eqb_spec c 1).
      * subst c. cbn. auto.
      * destruct (Z.eqb_spec (c - 1) 0); [lia|]. cbn. auto with zarith.
    + destruct (Z.ltb_spec 0 c); [|lia]. cbn. auto.
    + auto.
    + auto.
    + destruct (Z.ltb_spec 0 c); [|lia]. auto.
    + destruct (Z.ltb_spec 0 c); [|lia]. auto.
  - subst c. destruct o; cbn in E |- *; try (exfalso; apply W; reflexivity); injection E as <- <-; cbn; auto with zarith.
Qed.

Lemma run_ruby : forall h s s' xs, fine s -> no_wait h -> ruby_run s h = Some (s', xs) ->
  fst (run s h) = s' /\ Forall2 agree xs (snd (run s h)).
Proof.
  induction h as [|(t, o) r IH]; intros s s' xs F W E; cbn in E |- *.
  - injection E as <- <-. auto.
  - destruct (ruby_step s t o) as [(s1, x)|] eqn:R; [|discriminate E].
    destruct (ruby_run s1 r) as [(s2, xs')|] eqn:Q; [|discriminate E]. injection E as <- <-.
    assert (Wo : o <> Wait) by (intros ->; apply (W t); left; reflexivity).
    destruct (step_ruby s t o s1 x F Wo R) as (F1 & S1 & A).
    assert (Wr : no_wait r) by (intros u Hu; apply (W u); right; exact Hu).
    destruct (IH s1 s2 xs' F1 Wr Q) as (S2 & G).
    destruct (step s t o) as (s1', x'). cbn in S1, A. subst s1'. destruct (run s1 r) as (s2', ys). cbn in *. auto.
Qed.

(** Histories in which no thread has to wait are those of Ruby. *)
Lemma uncontended h s' xs : no_wait h -> ruby_run free h = Some (s', xs) ->
  fst (run free h) = s' /\ Forall2 agree xs (snd (run free h)).
Proof. intros W E. apply run_ruby; auto. reflexivity. Qed.

(* ------------------------------------------------------------------ *)
(** ** Mutual exclusion *)

Definition counted (s : mon) (d : nat -> Z) : Prop :=
  match owner s with
  | None => forall t, d t = 0
  | Some u => d u = count s /\ forall t, t <> u -> d t = 0
  end.

Definition after (d : nat -> Z) (u : nat) (o : op) (x : out) (t : nat) : Z :=
  if Nat.eqb u t then
    match o, x with
    | Enter, Done | TryEnter, Answer true => d t + 1
    | Exit, Done => Z.max 0 (d t - 1)
    | _, _ => d t
    end
  else d t.

Lemma counted_step s d u o s' x : fine s -> counted s d -> o <> Wait -> ruby_step s u o = Some (s', x) ->
  counted s' (after d u o (snd (step s u o))).
Proof.
  intros F C W E. destruct (step_ruby s u o s' x F W E) as (F' & _ & _).
  unfold fine, counted in *. destruct s as [[v|] c]; cbn [owner count] in *.
  - destruct C as (C1 & C2).
    destruct o; cbn in E |- *; unfold owns in *; cbn [owner count] in *; destruct (Nat.eqb_spec v u) as [->|N];
      try discriminate E; try (exfalso; apply W; reflexivity); try injection E as <- <-; cbn [owner count snd fst] in *.
    + unfold after. rewrite Nat.eqb_refl. split; [lia|]. intros t Ht. destruct (Nat.eqb_spec u t); [congruence|]. auto.
    + unfold after. rewrite Nat.eqb_refl. split; [lia|]. intros t Ht. destruct (Nat.eqb_spec u t); [congruence|]. auto.
    + unfold after. destruct (Nat.eqb_spec u v); [congruence|]. split; [auto|]. intros t Ht.
      destruct (Nat.eqb_spec u t); [subst|]; auto.
    + destruct (Z.ltb_spec 0 c); [|lia]. cbn. unfold after. destruct (Z.eqb_spec c 1).
      * cbn. intros t. destruct (Nat.eqb_spec u t) as [<-|N]; [rewrite C1, e; reflexivity|]. apply C2. congruence.
      * cbn. rewrite Nat.eqb_refl. split; [rewrite C1; lia|]. intros t Ht. destruct (Nat.eqb_spec u t); [congruence|]. auto.
    + destruct (Z.ltb_spec 0 c); [|lia]. cbn. unfold after. destruct (Nat.eqb_spec u v); [congruence|]. split; [auto|]. intros t Ht.
      destruct (Nat.eqb_spec u t); [subst|]; auto.
    + unfold after. split; [destruct (Nat.eqb_spec u u); auto|]. intros t Ht. destruct (Nat.eqb_spec u t); auto.
    + unfold after. split; [destruct (Nat.eqb_spec u v); auto|]. intros t Ht. destruct (Nat.eqb_spec u t); auto.
    + unfold after. split; [destruct (Nat.eqb_spec u u); auto|]. intros t Ht. destruct (Nat.eqb_spec u t); auto.
    + unfold after. split; [destruct (Nat.eqb_spec u v); auto|]. intros t Ht. destruct (Nat.eqb_spec u t); auto.
  - subst c. destruct o; cbn in E |- *; try (exfalso; apply W; reflexivity); injection E as <- <-; cbn [owner count] in *; unfold after.
    + rewrite Nat.eqb_refl, C. split; [reflexivity|]. intros t Ht. destruct (Nat.eqb_spec u t); [congruence|]. apply C.
    + rewrite Nat.eqb_refl, C. split; [reflexivity|]. intros t Ht. destruct (Nat.eqb_spec u t); [congruence|]. apply C.
    + intros t. rewrite C. destruct (Nat.eqb u t); reflexivity.
    + intros t. rewrite C. destruct (Nat.eqb u t); reflexivity.
    + intros t. rewrite C. destruct (Nat.eqb u t); reflexivity.
Qed.

Lemma counted_run : forall h s d s' xs, fine s -> counted s d -> no_wait h -> ruby_run s h = Some (s', xs) ->
  counted s' (fun t => depth t (d t) h (snd (run s h))).
Proof.
  induction h as [|(u, o) r IH]; intros s d s' xs F C W E; cbn [ruby_run run] in *.
  - injection E as <- <-. exact C.
  - destruct (ruby_step s u o) as [(s1, x)|] eqn:R; [|discriminate E].
    destruct (ruby_run s1 r) as [(s2, xs')|] eqn:Q; [|discriminate E]. injection E as <- <-.
    assert (Wo : o <> Wait) by (intros ->; apply (W u); left; reflexivity).
    assert (Wr : no_wait r) by (intros v Hv; apply (W v); right; exact Hv).
    pose proof (counted_step s d u o s1 x F C Wo R) as C1.
    destruct (step_ruby s u o s1 x F Wo R) as (F1 & S1 & _).
    specialize (IH s1 _ s2 xs' F1 C1 Wr Q).
    destruct (step s u o) as (s1', x'). cbn in S1. subst s1'. cbn [snd] in *.
    destruct (run s1 r) as (s2', ys). exact IH.
Qed.

(** Then never two threads are inside. *)
Lemma exclusion h s' xs t u : no_wait h -> ruby_run free h = Some (s', xs) ->
  inside t h -> inside u h -> t = u.
Proof.
  intros W E. unfold inside. assert (C : counted free (fun _ => 0)) by (intros v; reflexivity).
  pose proof (counted_run h free (fun _ => 0) s' xs eq_refl C W E) as G. cbn beta in G.
  unfold counted in G. destruct (owner s') as [v|].
  - destruct G as (_ & G). intros A B.
    destruct (Nat.eq_dec t v) as [->|N]; [|rewrite (G t N) in A; lia].
    destruct (Nat.eq_dec u v) as [->|N]; [reflexivity|rewrite (G u N) in B; lia].
  - intros A. rewrite (G t) in A. lia.
Qed.

(** With try_enter alone no thread has to wait. *)
Lemma try_only : forall h s, (forall t, ~ In (t, Enter) h) -> exists s' xs, ruby_run s h = Some (s', xs).
Proof.
  induction h as [|(t, o) r IH]; intros s H; [cbn; eauto|]. cbn [ruby_run].
  assert (G : exists s1 x, ruby_step s t o = Some (s1, x)).
  { destruct o; [exfalso; apply (H t); left; reflexivity| | | | |]; cbn; try eauto.
    - destruct (owner s) as [u|]; [destruct (Nat.eqb u t)|]; eauto.
    - destruct (owner s) as [u|]; [destruct (Nat.eqb u t)|]; eauto.
    - destruct (owns t s); eauto. }
  destruct G as (s1 & x & ->). destruct (IH s1) as (s2 & xs & ->); [intros u Hu; apply (H u); right; exact Hu|]. eauto.
Qed.

Lemma try_exclusion h t u : no_wait h -> (forall t, ~ In (t, Enter) h) -> inside t h -> inside u h -> t = u.
Proof. intros W H. destruct (try_only h free H) as (s' & xs & E). apply (exclusion h s' xs t u W E). Qed.

(* ------------------------------------------------------------------ *)
(** ** synchronize in one thread *)

Lemma run_app : forall a b s, run s (a ++ b) =
  let '(s1, xs) := run s a in let '(s2, ys) := run s1 b in (s2, xs ++ ys).
Proof.
  induction a as [|(t, o) r IH]; intros b s; cbn [app run].
  - destruct (run s b) as (s2, ys). reflexivity.
  - destruct (step s t o) as (s1, x). rewrite IH. destruct (run s1 r) as (s2, xs). destruct (run s2 b) as (s3, ys). reflexivity.
Qed.

Lemma blocks_ok t h : blocks t h -> forall s, fine s -> owner s = None \/ owner s = Some t ->
  fst (run s h) = s /\ ~ In Error (snd (run s h)).
Proof.
  intros B. induction B as [|o h Ho B IH|b h B IHb C IHc]; intros s F O; [cbn; auto| |].
  - cbn [run]. assert (E : exists b, step s t o = (s, Answer b)) by (destruct Ho as [->| ->]; cbn; eauto).
    destruct E as (b & E). rewrite E. specialize (IH s F O). destruct (run s h) as (s2, xs). cbn in *.
    destruct IH as (-> & N). split; [reflexivity|]. intros [X|X]; [discriminate X|auto].
  - unfold sync. rewrite run_app. cbn [run step]. set (s1 := mkM (Some t) (count s + 1)). rewrite run_app.
    assert (F1 : fine s1) by (unfold fine in *; cbn; destruct (owner s); lia).
    specialize (IHb s1 F1 (or_intror eq_refl)). destruct (run s1 b) as (s2, xs). cbn [fst snd] in IHb. destruct IHb as (-> & N1).
    cbn [run]. 
    assert (E : step s1 t Exit = (s, Done)).
    { unfold step, s1, owns. cbn [owner count]. rewrite Nat.eqb_refl. cbn [negb andb].
      unfold fine in F. destruct s as [[v|] c]; cbn [owner count] in *.
      - destruct O as [O|O]; [discriminate O|]. injection O as ->.
        destruct (Z.ltb_spec 0 (c + 1)); [|lia]. destruct (Z.eqb_spec (c + 1 - 1) 0); [lia|].
        replace (c + 1 - 1) with c by lia. reflexivity.
      - subst c. reflexivity. }
    rewrite E. specialize (IHc s F O). destruct (run s h) as (s3, ys). cbn [fst snd] in *. destruct IHc as (-> & N2).
    split; [reflexivity|]. intros X. apply in_app_or in X. destruct X as [X|X]; [|auto].
    destruct X as [X|X]; [discriminate X|]. apply in_app_or in X. destruct X as [X|[X|[]]]; [auto|discriminate X].
Qed.

(** synchronize leaves the monitor as it was, however deep. *)
Lemma synchronize_ok t h : blocks t h -> fst (run free h) = free /\ ~ In Error (snd (run free h)).
Proof. intros B. apply (blocks_ok t h B free); [reflexivity|left; reflexivity]. Qed.

(* ------------------------------------------------------------------ *)
(** ** Disagreements *)

(** enter never waits: two threads are inside. *)
Lemma exclusion_bad : ~ (forall h t u, no_wait h -> inside t h -> inside u h -> t = u).
Proof.
  intros H. specialize (H [(0%nat, Enter); (1%nat, Enter)] 0%nat 1%nat).
  assert (E : 0%nat = 1%nat); [|discriminate E]. apply H.
  - intros t [X|[X|[]]]; discriminate X.
  - reflexivity.
  - reflexivity.
Qed.

(** The exit of a synchronize raises ThreadError when another thread has entered
    meanwhile. *)
Lemma exit_bad : ~ (forall h t, blocks t (filter (fun e => Nat.eqb (fst e) t) h) ->
  forall u, blocks u (filter (fun e => Nat.eqb (fst e) u) h) ->
  (forall e, In e h -> fst e = t \/ fst e = u) -> ~ In Error (snd (run free h))).
Proof.
  intros H.
  specialize (H [(0%nat, Enter); (1%nat, Enter); (0%nat, Exit); (1%nat, Exit)] 0%nat).
  assert (A : forall t, blocks t (sync t [] ++ [])) by (intros t; apply blocks_sync; constructor).
  specialize (H (A 0%nat) 1%nat (A 1%nat)).
  apply H.
  - intros e [<-|[<-|[<-|[<-|[]]]]]; auto.
  - vm_compute. auto.
Qed.

(** exit of a monitor that nobody has entered raises nothing. *)
Lemma exit_free_bad : ~ (forall s t s' x, fine s -> ruby_step s t Exit = Some (s', x) -> step s t Exit = (s', x)).
Proof. intros H. specialize (H free 0%nat free Error eq_refl eq_refl). discriminate H. Qed.

(** wait does not leave the monitor. *)
Lemma wait_bad : ~ (forall s t s' x, fine s -> owns t s = true -> ruby_step s t Wait = Some (s', x) -> step s t Wait = (s', x)).
Proof. intros H. specialize (H (mkM (Some 0%nat) 1) 0%nat free Done eq_refl eq_refl eq_refl). discriminate H. Qed.
