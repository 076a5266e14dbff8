From Coq Require Import List Bool Arith Lia.
From Verif Require Import MutexModel MutexSpec MutexProofs QueueModel QueueSpec.
Import ListNotations.

Ltac inv_some E s' :=
  match type of E with Some ?y = _ => assert (s' = y) as -> by congruence; clear E end.

(** ** What a step of the Mutex does to the threads *)

(** Threads other than [t] keep their place; none comes to life. *)
Definition frame (m m' : state) (t : nat) : Prop := forall u, u <> t -> alive (thr m' u) = true ->
  alive (thr m u) = true /\ at_ (thr m' u) = at_ (thr m u) /\ holds (thr m' u) = holds (thr m u).
Definition quiet (m m' : state) : Prop := forall u,
  alive (thr m' u) = alive (thr m u) /\ at_ (thr m' u) = at_ (thr m u) /\ holds (thr m' u) = holds (thr m u).

Lemma quiet_wakeup : forall m w p, quiet m (wakeup m w p).
Proof. intros m w p u. destruct (wakeup_thr m w p u) as (A & B & C & _). auto. Qed.
Lemma quiet_refl : forall m, quiet m m.
Proof. intros m u; auto. Qed.
Lemma frame_set : forall m t x, frame m (set m t x) t.
Proof. intros m t x u U A. rewrite thr_set in *. destruct (Nat.eqb_spec u t); [ contradiction | auto ]. Qed.
Lemma frame_trans : forall m1 m2 m3 t, frame m1 m2 t -> frame m2 m3 t -> frame m1 m3 t.
Proof.
  intros m1 m2 m3 t F G u U A. destruct (G u U A) as (A2 & B2 & C2). destruct (F u U A2) as (A1 & B1 & C1).
  repeat split; congruence.
Qed.
Lemma quiet_frame : forall m m' t, quiet m m' -> frame m m' t.
Proof. intros m m' t H u U A. destruct (H u) as (A1 & B1 & C1). repeat split; congruence. Qed.
Lemma frame_refl : forall m t, frame m m t.
Proof. intros m t. apply quiet_frame, quiet_refl. Qed.
Lemma frame_own : forall m o t, frame m (set_owner m o) t.
Proof. intros m o t u U A. auto. Qed.
Lemma frame_waiters : forall m o t, frame m (set_waiters m o) t.
Proof. intros m o t u U A. auto. Qed.
Lemma frame_turn : forall m t k, frame m (unlock_turn m t k) t.
Proof.
  intros m t k. unfold unlock_turn. destruct (waiters m) as [|w r]; [ apply frame_set | ].
  destruct (alive _).
  - eapply frame_trans; [ | apply frame_set ]. eapply frame_trans; [ apply frame_waiters | ].
    apply quiet_frame, quiet_wakeup.
  - eapply frame_trans; [ apply frame_waiters | apply frame_set ].
Qed.

Lemma frame_step : forall m l m', step false m l = Some m' -> frame m m' (names l).
Proof.
  intros m l m' E. destruct l; cbn [step names] in *.
  - destruct (_ && _); [ | discriminate ]. destruct (match owner m with Some o => _ | None => _ end);
      inv_some E m'; [ apply frame_refl | apply frame_set ].
  - destruct (_ && _); [ | discriminate ]. destruct (owner m); inv_some E m'; [ apply frame_refl | ].
    eapply frame_trans; [ apply frame_own | apply frame_set ].
  - destruct (_ && _); [ | discriminate ]. inv_some E m'. apply frame_set.
  - destruct (_ && _); [ | discriminate ]. destruct (match owner m with Some o => _ | None => _ end);
      inv_some E m'; [ apply frame_set | apply frame_refl ].
  - destruct (alive _); [ | discriminate ]. unfold run in E.
    destruct (at_ (thr m t)); try discriminate;
      repeat match type of E with
      | match ?x with Some _ => _ | None => _ end = _ => destruct x
      | (if ?b then _ else _) = _ => destruct b
      | None = _ => discriminate E
      end; inv_some E m'; try apply frame_set; try apply frame_own; try apply frame_turn.
    + eapply frame_trans; [ apply frame_waiters | apply frame_set ].
    + eapply frame_trans; [ apply frame_own | apply frame_set ].
    + eapply frame_trans; [ apply frame_waiters | apply frame_set ].
    + eapply frame_trans; [ apply frame_waiters | apply frame_set ].
    + eapply frame_trans; [ | apply frame_turn ]. eapply frame_trans; [ apply frame_own | apply frame_set ].
  - destruct (at_ (thr m t)); try discriminate. destruct (alive _); [ | discriminate ]. inv_some E m'. apply frame_set.
  - inv_some E m'. apply quiet_frame, quiet_wakeup.
  - destruct (is_out _); [ | discriminate ]. inv_some E m'. apply frame_set.
  - destruct (alive _); [ | discriminate ]. unfold unwind in E. cbn [at_ set_parked] in E.
    destruct (at_ (thr m t)) as [|[]|[]|[]|[]|[]|k|k| |]; try discriminate; inv_some E m';
      try apply frame_refl; try apply frame_set; eapply frame_trans; try apply frame_waiters; apply frame_set.
  - destruct (_ && _); [ | discriminate ]. inv_some E m'. apply frame_set.
  - destruct (alive _); [ | discriminate ]. inv_some E m'. intros u U A. cbn [thr] in *.
    destruct (Nat.eqb_spec u t); [ contradiction | discriminate ].
Qed.

(** The thread that runs. *)
Lemma run_view : forall m t m', step false m (Run t) = Some m' -> Own m ->
  let x := thr m t in let x' := thr m' t in
  alive x = true /\ alive x' = true /\
  match at_ x with
  | LTop un => at_ x' = Out /\ holds x' = true \/ (at_ x' = LReg un \/ at_ x' = LTop un) /\ holds x' = holds x
  | LReg un => (at_ x' = LTop un \/ at_ x' = LPark un) /\ holds x' = holds x
  | LIo un => at_ x' = LReg un /\ holds x' = holds x
  | LPark un => at_ x' = LTop un /\ holds x' = holds x
  | UEntry k => (holds x = true /\ (at_ x' = after k \/ at_ x' = ULoop k) /\ holds x' = false) \/
                (holds x = false /\ at_ x' = Out /\ holds x' = false)
  | ULoop k => (at_ x' = after k \/ at_ x' = ULoop k) /\ holds x' = holds x
  | SReg => (at_ x' = LTop true \/ at_ x' = SPark) /\ holds x' = holds x
  | SPark => at_ x' = LTop true /\ holds x' = holds x
  | Out | LReclaim _ => False
  end.
Proof.
  intros m t m' E O x x'. cbn [step] in E. subst x x'. destruct (alive (thr m t)) eqn:A; [ | discriminate ].
  assert (T : forall m0 k, alive (thr m0 t) = true -> alive (thr (unlock_turn m0 t k) t) = true /\
    (at_ (thr (unlock_turn m0 t k) t) = after k \/ at_ (thr (unlock_turn m0 t k) t) = ULoop k) /\
    holds (thr (unlock_turn m0 t k) t) = holds (thr m0 t)).
  { intros m0 k A0. unfold unlock_turn. destruct (waiters m0) as [|w r].
    - rewrite thr_set, Nat.eqb_refl. cbn. auto.
    - destruct (alive (thr (set_waiters m0 r) w)); rewrite thr_set, Nat.eqb_refl; cbn [goto alive at_ holds]; auto.
      destruct (quiet_wakeup (set_waiters m0 r) w true t) as (B1 & B2 & B3).
      rewrite B1, B3. cbn [set_waiters thr]. auto. }
  split; auto. unfold run in E. destruct (at_ (thr m t)) as [|un|un|un|un|un|k|k| |] eqn:P; try discriminate.
  - destruct (owner m); [ destruct (alive (thr m n)) | ]; inv_some E m'.
    + rewrite thr_set, Nat.eqb_refl. cbn. auto.
    + cbn [set_owner thr]. rewrite A, P. auto.
    + rewrite thr_set, Nat.eqb_refl. cbn. auto.
  - destruct (permit _); inv_some E m'; rewrite thr_set, Nat.eqb_refl; cbn; auto.
  - inv_some E m'; rewrite thr_set, Nat.eqb_refl; cbn; auto.
  - destruct (parked _); [ discriminate | ]. inv_some E m'; rewrite thr_set, Nat.eqb_refl; cbn; auto.
  - destruct O as (O1 & O2). destruct (owner m) eqn:Q; [ destruct (Nat.eqb_spec n t) as [N|N] | ]; inv_some E m'.
    + subst n. match goal with |- context [unlock_turn ?m0 t k] => destruct (T m0 k) as (T1 & T2 & T3) end.
      { rewrite thr_set, Nat.eqb_refl; auto. }
      split; auto. left. split; [ apply O2; auto | ]. split; auto. rewrite T3, thr_set, Nat.eqb_refl; auto.
    + rewrite thr_set, Nat.eqb_refl; cbn. split; auto. right.
      destruct (holds (thr m t)) eqn:H; auto. destruct (O1 _ H). congruence.
    + rewrite thr_set, Nat.eqb_refl; cbn. split; auto. right.
      destruct (holds (thr m t)) eqn:H; auto. destruct (O1 _ H). congruence.
  - inv_some E m'. destruct (T m k) as (T1 & T2 & T3); auto.
  - destruct (permit _); inv_some E m'; rewrite thr_set, Nat.eqb_refl; cbn; auto.
  - destruct (parked _); [ discriminate | ]. inv_some E m'; rewrite thr_set, Nat.eqb_refl; cbn; auto.
Qed.

(** ** Where a thread can be *)
Definition ctl (c : bool) (p : qpc) (x : th) : bool :=
  match at_ x with
  | Out => match p with QOut | Fin _ => if c then negb (holds x) else true | _ => holds x end
  | LTop b | LReg b | LIo b | LPark b =>
      negb (holds x) && match p with Body _ => negb b | Parked _ | Raising _ => b | _ => false end
  | LReclaim _ => false
  | UEntry KReturn => match p with Fin _ => if c then holds x else true | _ => false end
  | UEntry KSleep => match p with Parked _ => holds x | _ => false end
  | ULoop KReturn => negb (holds x) && match p with Fin _ => true | _ => false end
  | ULoop KSleep | SReg | SPark => negb (holds x) && match p with Parked _ => true | _ => false end
  end.
Definition Ctl (c : bool) (s : qstate) : Prop :=
  forall t, alive (thr (mx s) t) = true -> ctl c (pcs s t) (thr (mx s) t) = true.

(** Only [t] moves. *)
Lemma Ctl_move : forall c s s' t, Ctl c s -> frame (mx s) (mx s') t -> (forall u, u <> t -> pcs s' u = pcs s u) ->
  (alive (thr (mx s') t) = true -> ctl c (pcs s' t) (thr (mx s') t) = true) -> Ctl c s'.
Proof.
  intros c s s' t C F P X u A. destruct (Nat.eq_dec u t) as [Q|U]; [ subst; auto | ].
  destruct (F u U A) as (A' & B & H). rewrite P; auto. specialize (C u A'). unfold ctl in *. rewrite B, H. exact C.
Qed.

Lemma pcs_set : forall s t p u, pcs (set_pc s t p) u = if Nat.eqb u t then p else pcs s u.
Proof. reflexivity. Qed.
Lemma pcs_mx : forall s m u, pcs (set_mx s m) u = pcs s u.
Proof. reflexivity. Qed.
Lemma pcs_cv : forall s c l u, pcs (set_cv s c l) u = pcs s u.
Proof. intros s [] l u; reflexivity. Qed.
Lemma mx_cv : forall s c l, mx (set_cv s c l) = mx s.
Proof. intros s [] l; reflexivity. Qed.

Lemma unlock_some : forall m t, alive (thr m t) = true -> at_ (thr m t) = Out ->
  step false m (Unlock t) = Some (set m t (goto (thr m t) (UEntry KReturn))).
Proof. intros m t A P. cbn [step]. rewrite A, P. reflexivity. Qed.
Lemma finish_eq : forall s t r, alive (thr (mx s) t) = true -> at_ (thr (mx s) t) = Out ->
  finish s t r = set_pc (set_mx s (set (mx s) t (goto (thr (mx s) t) (UEntry KReturn)))) t (Fin r).
Proof. intros s t r A P. unfold finish. rewrite unlock_some; auto. Qed.

(** Same data, same places. *)
Lemma Ctl_data : forall c s s', Ctl c s -> quiet (mx s) (mx s') -> pcs s' = pcs s -> Ctl c s'.
Proof.
  intros c s s' C F P u A. destruct (F u) as (A1 & B & H). rewrite A1 in A. rewrite P.
  specialize (C u A). unfold ctl in *. rewrite B, H. exact C.
Qed.

Lemma Ctl_finish : forall c s t r, Ctl c s -> alive (thr (mx s) t) = true -> at_ (thr (mx s) t) = Out ->
  (c = true -> holds (thr (mx s) t) = true) -> Ctl c (finish s t r).
Proof.
  intros c s t r C A P H. rewrite finish_eq; auto. apply (Ctl_move c s _ t); auto.
  - apply frame_set.
  - intros u U. rewrite pcs_set. destruct (Nat.eqb_spec u t); [ contradiction | auto ].
  - intros _. rewrite pcs_set, Nat.eqb_refl. cbn [set_pc set_mx mx]. rewrite thr_set, Nat.eqb_refl. unfold ctl. cbn.
    destruct c; auto.
Qed.
Lemma Ctl_pc : forall c s t p, Ctl c s -> at_ (thr (mx s) t) = Out -> holds (thr (mx s) t) = true ->
  p <> QOut -> (forall r, p <> Fin r) -> Ctl c (set_pc s t p).
Proof.
  intros c s t p C P H N1 N2. apply (Ctl_move c s _ t); auto.
  - apply frame_refl.
  - intros u U. rewrite pcs_set. destruct (Nat.eqb_spec u t); [ contradiction | auto ].
  - intros A. rewrite pcs_set, Nat.eqb_refl. cbn [set_pc mx]. unfold ctl. rewrite P. destruct p; auto; try congruence.
Qed.

Lemma signal_quiet : forall s c, quiet (mx s) (mx (fst (signal s c))).
Proof.
  intros s c. unfold signal. destruct (cv s c) as [|w r]; [ apply quiet_refl | ].
  destruct (alive _); cbn [fst set_mx mx]; rewrite mx_cv; [ apply quiet_wakeup | apply quiet_refl ].
Qed.
Lemma signal_pcs : forall s c, pcs (fst (signal s c)) = pcs s.
Proof.
  intros s c. unfold signal. destruct (cv s c) as [|w r]; auto.
  destruct (alive _); cbn [fst set_mx pcs]; destruct c; reflexivity.
Qed.

Definition critical (p : qpc) : bool :=
  match p with Sig | Take | PopSig _ | Wait _ | Reg _ | Cast _ => true | _ => false end.
Lemma critical_holds : forall c p x, ctl c p x = true -> critical p = true -> at_ x = Out /\ holds x = true.
Proof.
  intros c p x C K. unfold ctl in C. destruct p; try discriminate;
    destruct (at_ x) as [|[]|[]|[]|[]|[]|[]|[]| |]; try discriminate; auto; rewrite ?andb_false_r in C; try discriminate.
Qed.
Lemma out_holds : forall c p x, ctl c p x = true -> at_ x = Out -> p <> QOut -> (forall r, p <> Fin r) -> holds x = true.
Proof.
  intros c p x C O N1 N2. unfold ctl in C. rewrite O in C. destruct p; auto; try congruence.
Qed.

Lemma Ctl_turn : forall c s t timed s', Ctl c s -> alive (thr (mx s) t) = true -> at_ (thr (mx s) t) = Out ->
  Own (mx s) -> turn s t timed = Some s' -> Ctl c s'.
Proof.
  intros c s t timed s' C A P O E. pose proof (C t A) as Ct.
  assert (H : pcs s t <> QOut -> (forall r, pcs s t <> Fin r) -> holds (thr (mx s) t) = true)
    by (intros; eapply out_holds; eauto).
  assert (F : forall s1 r, quiet (mx s) (mx s1) -> pcs s1 = pcs s -> pcs s t <> QOut -> (forall r, pcs s t <> Fin r) ->
            Ctl c (finish s1 t r)).
  { intros s1 r Qm Qp N1 N2. destruct (Qm t) as (Q1 & Q2 & Q3). apply Ctl_finish.
    - eapply Ctl_data; eauto.
    - congruence.
    - congruence.
    - intros _. rewrite Q3. auto. }
  assert (G : forall s1 p, quiet (mx s) (mx s1) -> pcs s1 = pcs s -> pcs s t <> QOut -> (forall r, pcs s t <> Fin r) ->
            p <> QOut -> (forall r, p <> Fin r) -> Ctl c (set_pc s1 t p)).
  { intros s1 p Qm Qp N1 N2 N3 N4. destruct (Qm t) as (Q1 & Q2 & Q3). apply Ctl_pc; auto.
    - eapply Ctl_data; eauto.
    - congruence.
    - rewrite Q3; auto. }
  unfold turn in E. destruct (pcs s t) as [|o| | |r|o|o|o|o|v|r] eqn:K; try discriminate;
    try (assert (H' : holds (thr (mx s) t) = true) by (apply H; [ discriminate | intros; discriminate ])).
  - destruct o as [x nb|nb| | |m].
    + destruct (closed s); [ inv_some E s'; apply F; auto using quiet_refl; congruence | ].
      destruct (full s); [ destruct nb; [ | destruct timed ] | ]; inv_some E s';
        (apply F || apply G); auto using quiet_refl; congruence.
    + destruct (items s); [ destruct nb; [ | destruct (closed s); [ | destruct timed ] ] | ]; inv_some E s';
        (apply F || apply G); auto using quiet_refl; congruence.
    + destruct (closed s); inv_some E s'; (apply F || apply G); auto using quiet_refl; congruence.
    + destruct (cap s); inv_some E s'; (apply F || apply G); auto using quiet_refl; congruence.
    + destruct (cap s); [ destruct (Nat.ltb n m) | ]; inv_some E s'; (apply F || apply G); auto using quiet_refl; congruence.
  - pose proof (signal_quiet s CPop) as S1. pose proof (signal_pcs s CPop) as S2.
    destruct (signal s CPop) as (s1, again). cbn [fst] in *. destruct again; inv_some E s'.
    + eapply Ctl_data; eauto.
    + apply F; auto; congruence.
  - assert (X : exists s1 r, (let (s1, r) := match items s with
                     | x :: l => (set_items s l (pushed s) (gone s ++ [(x, Some t)]), RItem x)
                     | [] => (s, RNil)
                     end in
      match cap s with Some _ => Some (set_pc s1 t (PopSig r)) | None => Some (finish s1 t r) end) =
       match cap s with Some _ => Some (set_pc s1 t (PopSig r)) | None => Some (finish s1 t r) end /\ mx s1 = mx s /\ pcs s1 = pcs s).
    { destruct (items s); do 2 eexists; (split; [ reflexivity | split; reflexivity ]). }
    destruct X as (s1 & r & X & M1 & P1). rewrite X in E. clear X.
    destruct (cap s); inv_some E s'; (apply F || apply G); rewrite ?M1; auto using quiet_refl; congruence.
  - pose proof (signal_quiet s CPush) as S1. pose proof (signal_pcs s CPush) as S2.
    destruct (signal s CPush) as (s1, again). cbn [fst] in *. destruct again; inv_some E s'.
    + eapply Ctl_data; eauto.
    + apply F; auto; congruence.
  - inv_some E s'. apply G; rewrite ?mx_cv; auto using quiet_refl; try congruence. destruct (cv_of o); reflexivity.
  - cbn [step] in E. rewrite A, P in E. cbn [is_out andb] in E.
    destruct O as (O1 & O2). destruct (O1 t H') as (N & _). rewrite N, Nat.eqb_refl in E. rewrite thr_set, Nat.eqb_refl in E.
    cbn [goto at_ is_out] in E. inv_some E s'. apply (Ctl_move c s _ t); auto.
    + apply frame_set.
    + intros u U. rewrite pcs_set. destruct (Nat.eqb_spec u t); [ contradiction | auto ].
    + intros _. rewrite pcs_set, Nat.eqb_refl. cbn [set_pc set_mx mx]. rewrite thr_set, Nat.eqb_refl. unfold ctl. cbn. auto.
  - inv_some E s'. apply G; unfold unregister; rewrite ?mx_cv; auto using quiet_refl; try congruence. destruct (cv_of o); reflexivity.
  - inv_some E s'. apply F; unfold unregister; rewrite ?mx_cv; auto using quiet_refl; try congruence. destruct (cv_of o); reflexivity.
  - destruct (cv s v) eqn:W.
    + destruct v; [ destruct (cap s) | ]; inv_some E s'; (apply F || apply G); auto using quiet_refl; congruence.
    + inv_some E s'. eapply Ctl_data; [ eauto | apply signal_quiet | apply signal_pcs ].
  - inv_some E s'. apply (Ctl_move c s _ t); auto.
    + destruct r; apply frame_refl.
    + intros u U. rewrite pcs_set. destruct (Nat.eqb_spec u t); [ contradiction | destruct r; auto ].
    + intros _. rewrite pcs_set, Nat.eqb_refl. unfold ctl in *.
      replace (thr (mx (set_pc match r with RItem x => set_got s (got s ++ [(t, x)]) | _ => s end t QOut)) t)
        with (thr (mx s) t) by (destruct r; reflexivity). rewrite P in *. exact Ct.
Qed.

(** ** The Mutex inside a queue goes through a history of its own *)
Inductive mstar (ok : state -> label -> Prop) : state -> state -> Prop :=
| ms_refl : forall m, mstar ok m m
| ms_step : forall m1 m2 m3 l, mstar ok m1 m2 -> ok m2 l -> step false m2 l = Some m3 -> mstar ok m1 m3.
Lemma mstar_history : forall ok m m', history false ok m -> mstar ok m m' -> history false ok m'.
Proof. intros ok m m' H S. induction S; auto. eapply h_step; [ apply IHS; auto | eauto | eauto ]. Qed.
Lemma mstar_one : forall (ok : state -> label -> Prop) m l m', ok m l -> step false m l = Some m' -> mstar ok m m'.
Proof. intros. eapply ms_step; eauto. constructor. Qed.

Lemma finish_mx : forall s t r, mx (finish s t r) = match step false (mx s) (Unlock t) with Some m => m | None => mx s end.
Proof. intros s t r. unfold finish. destruct (step false (mx s) (Unlock t)); reflexivity. Qed.
Lemma finish_mstar : forall (ok : state -> label -> Prop) m0 s t r, (forall m, ok m (Unlock t)) -> mstar ok m0 (mx s) -> mstar ok m0 (mx (finish s t r)).
Proof.
  intros ok m0 s t r K S. rewrite finish_mx. destruct (step false (mx s) (Unlock t)) eqn:E; auto. eapply ms_step; eauto.
Qed.
Lemma signal_mstar : forall (ok : state -> label -> Prop) s c, (forall m u p, ok m (Wakeup u p)) -> mstar ok (mx s) (mx (fst (signal s c))).
Proof.
  intros ok s c K. unfold signal. destruct (cv s c) as [|w r]; [ constructor | ].
  destruct (alive _); cbn [fst set_mx mx]; rewrite mx_cv; [ | constructor ].
  eapply ms_step; [ constructor | apply (K _ w true) | reflexivity ].
Qed.

Lemma turn_mstar : forall (ok : state -> label -> Prop) s t timed s',
  (forall m, ok m (Unlock t)) -> (forall m u p, ok m (Wakeup u p)) -> (forall m, ok m (Sleep t)) ->
  turn s t timed = Some s' -> mstar ok (mx s) (mx s').
Proof.
  intros ok s t timed s' KU KW KS E.
  assert (F : forall s1 r, mx s1 = mx s -> mstar ok (mx s) (mx (finish s1 t r))).
  { intros s1 r M. apply finish_mstar; auto. rewrite M. constructor. }
  unfold turn in E. destruct (pcs s t) as [|o| | |r|o|o|o|o|v|r] eqn:K; try discriminate.
  - destruct o as [x nb|nb| | |m].
    + destruct (closed s); [ inv_some E s'; apply F; auto | ].
      destruct (full s); [ destruct nb; [ | destruct timed ] | ]; inv_some E s'; try (apply F; auto); constructor.
    + destruct (items s); [ destruct nb; [ | destruct (closed s); [ | destruct timed ] ] | ]; inv_some E s'; try (apply F; auto); constructor.
    + destruct (closed s); inv_some E s'; try (apply F; auto); constructor.
    + destruct (cap s); inv_some E s'; try (apply F; auto); constructor.
    + destruct (cap s); [ destruct (Nat.ltb n m) | ]; inv_some E s'; try (apply F; auto); constructor.
  - pose proof (signal_mstar ok s CPop KW) as S1. destruct (signal s CPop) as (s1, again). cbn [fst] in *.
    destruct again; inv_some E s'; auto. apply finish_mstar; auto.
  - destruct (items s); destruct (cap s); inv_some E s'; try (apply F; auto); constructor.
  - pose proof (signal_mstar ok s CPush KW) as S1. destruct (signal s CPush) as (s1, again). cbn [fst] in *.
    destruct again; inv_some E s'; auto. apply finish_mstar; auto.
  - inv_some E s'. cbn [set_pc mx]. rewrite mx_cv. constructor.
  - destruct (step false (mx s) (Sleep t)) as [m|] eqn:S; [ | discriminate ].
    destruct (is_out _); inv_some E s'; [ apply F; unfold unregister; apply mx_cv | ]. eapply mstar_one; [ apply KS | exact S ].
  - inv_some E s'. cbn [set_pc mx]. unfold unregister. rewrite mx_cv. constructor.
  - inv_some E s'. apply F; unfold unregister; apply mx_cv.
  - destruct (cv s v); [ destruct v; [ destruct (cap s) | ] | ]; inv_some E s'; try (apply F; auto); try apply signal_mstar; auto; constructor.
  - inv_some E s'. destruct r; constructor.
Qed.

Lemma qstep_mstar : forall s l s', qstep s l = Some s' -> mstar anything (mx s) (mx s').
Proof.
  assert (T : forall m l, anything m l) by (intros; exact I).
  intros s l s' E. destruct l; cbn [qstep] in E.
  - unfold qcall in E. destruct (pcs s t); try discriminate. destruct (step false (mx s) (Lock t)) as [m|] eqn:L; [ | discriminate ].
    destruct (is_out _); inv_some E s'; [ constructor | eapply mstar_one; eauto ].
  - unfold qrun in E. destruct (alive _); [ | discriminate ]. destruct (is_out _).
    + eapply turn_mstar; eauto.
    + destruct (step false (mx s) (Run t)) as [m|] eqn:L; [ | discriminate ]. inv_some E s'. eapply mstar_one; eauto.
  - unfold qunwind in E. destruct (alive _); [ | discriminate ]. destruct (is_out _).
    + destruct (pcs s t); try discriminate; inv_some E s'; try (apply finish_mstar; auto; unfold unregister; rewrite ?mx_cv; constructor).
      constructor.
    + destruct (step false (mx s) (Unwind t)) as [m|] eqn:L; [ | discriminate ].
      assert (S : mstar anything (mx s) m) by (eapply mstar_one; eauto).
      destruct (pcs s t); try discriminate; try (inv_some E s'; exact S).
      destruct (is_out _); inv_some E s'; [ | exact S ]. apply finish_mstar; auto. unfold unregister. rewrite mx_cv. exact S.
  - destruct (step false (mx s) (Wakeup t p)) as [m|] eqn:L; [ | discriminate ]. inv_some E s'. eapply mstar_one; eauto.
  - destruct (qout _); [ | discriminate ]. destruct (step false (mx s) (Consume t)) as [m|] eqn:L; [ | discriminate ].
    inv_some E s'. eapply mstar_one; eauto.
  - destruct (step false (mx s) (Report t)) as [m|] eqn:L; [ | discriminate ]. inv_some E s'. eapply mstar_one; eauto.
  - destruct (qout _); [ | discriminate ]. destruct (step false (mx s) (Die t)) as [m|] eqn:L; [ | discriminate ].
    inv_some E s'. eapply mstar_one; eauto.
  - destruct (step false (mx s) (Fork t)) as [m|] eqn:L; [ | discriminate ]. inv_some E s'. eapply mstar_one; eauto.
Qed.

(** ** Control invariant *)
Definition safe_ok (c : bool) (s : qstate) (l : qlabel) : Prop := if c then calm s l else True.

Lemma step_Ctl : forall c s l s', Ctl c s -> Own (mx s) -> safe_ok c s l -> qstep s l = Some s' -> Ctl c s'.
Proof.
  intros c s l s' C O K E. destruct l; cbn [qstep] in E.
  - unfold qcall in E. destruct (pcs s t) eqn:P; try discriminate.
    destruct (step false (mx s) (Lock t)) as [m|] eqn:L; [ | discriminate ].
    destruct (is_out (at_ (thr m t))) eqn:D; inv_some E s'; auto.
    pose proof (frame_step _ _ _ L) as F. cbn [step] in L.
    destruct (alive (thr (mx s) t)) eqn:A; [ | discriminate ]. destruct (at_ (thr (mx s) t)) eqn:B; try discriminate.
    cbn [andb is_out] in L. destruct (owner (mx s)) as [ow|] eqn:W; [ destruct (Nat.eqb_spec ow t) as [N|N] | ].
    + inv_some L m. rewrite B in D. discriminate.
    + inv_some L m. apply (Ctl_move c s _ t); auto.
      * intros u U. rewrite pcs_set. destruct (Nat.eqb_spec u t); [ contradiction | auto ].
      * intros _. rewrite pcs_set, Nat.eqb_refl. cbn [set_pc set_mx mx]. rewrite thr_set, Nat.eqb_refl. unfold ctl. cbn.
        destruct (holds (thr (mx s) t)) eqn:H; auto. destruct O as (O1 & _). destruct (O1 t H). congruence.
    + inv_some L m. apply (Ctl_move c s _ t); auto.
      * intros u U. rewrite pcs_set. destruct (Nat.eqb_spec u t); [ contradiction | auto ].
      * intros _. rewrite pcs_set, Nat.eqb_refl. cbn [set_pc set_mx mx]. rewrite thr_set, Nat.eqb_refl. unfold ctl. cbn.
        destruct (holds (thr (mx s) t)) eqn:H; auto. destruct O as (O1 & _). destruct (O1 t H). congruence.
  - unfold qrun in E. destruct (alive (thr (mx s) t)) eqn:A; [ | discriminate ]. destruct (at_ (thr (mx s) t)) eqn:P; cbn [is_out] in E;
    [ eapply Ctl_turn; eauto | .. ];
    (destruct (step false (mx s) (Run t)) as [m|] eqn:L; [ | discriminate ]; inv_some E s';
     pose proof (frame_step _ _ _ L) as F; pose proof (run_view _ _ _ L O) as V; cbv zeta in V; rewrite P in V;
     apply (Ctl_move c s _ t); auto; intros _; specialize (C t A); rewrite pcs_mx; cbn [set_mx mx];
     destruct V as (_ & _ & V); unfold ctl in *; rewrite P in C).
    + apply andb_true_iff in C as (C1 & C2). destruct V as [(V1 & V2)|([V1|V1] & V2)]; rewrite V1, V2; [ | rewrite C1, C2; auto .. ].
      destruct (pcs s t); auto; discriminate.
    + contradiction.
    + apply andb_true_iff in C as (C1 & C2). destruct V as ([V1|V1] & V2); rewrite V1, V2, C1, C2; auto.
    + apply andb_true_iff in C as (C1 & C2). destruct V as (V1 & V2); rewrite V1, V2, C1, C2; auto.
    + apply andb_true_iff in C as (C1 & C2). destruct V as (V1 & V2); rewrite V1, V2, C1, C2; auto.
    + destruct k; destruct (pcs s t); try discriminate.
      * destruct V as [(V0 & [V1|V1] & V2)|(V0 & V1 & V2)]; rewrite V1, V2; cbn; auto; destruct c; auto.
      * destruct V as [(V0 & [V1|V1] & V2)|(V0 & V1 & V2)]; [ rewrite V1, V2; auto .. | congruence ].
    + destruct k; apply andb_true_iff in C as (C1 & C2); destruct (pcs s t); try discriminate;
      destruct V as ([V1|V1] & V2); rewrite V1, V2; cbn [after]; rewrite ?C1; auto. destruct c; auto.
    + apply andb_true_iff in C as (C1 & C2). destruct (pcs s t); try discriminate.
      destruct V as ([V1|V1] & V2); rewrite V1, V2, C1; auto.
    + apply andb_true_iff in C as (C1 & C2). destruct (pcs s t); try discriminate.
      destruct V as (V1 & V2); rewrite V1, V2, C1; auto.
  - unfold qunwind in E. destruct (alive (thr (mx s) t)) eqn:A; [ | discriminate ].
    destruct (is_out (at_ (thr (mx s) t))) eqn:B.
    + assert (P : at_ (thr (mx s) t) = Out) by (destruct (at_ (thr (mx s) t)); try discriminate; auto).
      assert (H : pcs s t <> QOut -> (forall r, pcs s t <> Fin r) -> holds (thr (mx s) t) = true)
        by (intros; eapply out_holds; eauto).
      destruct (pcs s t) eqn:Q; try discriminate; inv_some E s'; auto;
        try solve [ apply Ctl_finish; auto; intros _; apply H; congruence ];
        (apply Ctl_finish; unfold unregister; rewrite ?mx_cv;
         [ eapply Ctl_data; [ eauto | rewrite mx_cv; apply quiet_refl | destruct (cv_of o); reflexivity ]
         | auto | auto | intros _; apply H; congruence ]).
    + destruct c; [ cbn in K; specialize (C t A); rewrite K in C; unfold ctl in C;
        destruct (at_ (thr (mx s) t)) as [|[]|[]|[]|[]|[]|[]|[]| |]; try discriminate; rewrite ?andb_false_r in C; discriminate | ].
      destruct (step false (mx s) (Unwind t)) as [m|] eqn:L; [ | discriminate ]. pose proof (frame_step _ _ _ L) as F.
      assert (V : alive (thr m t) = true /\ holds (thr m t) = holds (thr (mx s) t) /\
                  (at_ (thr m t) = Out \/ at_ (thr m t) = LTop true /\ (at_ (thr (mx s) t) = SReg \/ at_ (thr (mx s) t) = SPark))).
      { cbn [step] in L. rewrite A in L. unfold unwind in L. cbn [at_ set_parked] in L.
        destruct (at_ (thr (mx s) t)) as [|[]|[]|[]|[]|[]|k|k| |] eqn:Q; try discriminate; inv_some L m;
          rewrite ?thr_set, ?Nat.eqb_refl; cbn; auto 6. }
      destruct V as (V1 & V2 & V3). pose proof (C t A) as Ct.
      destruct (pcs s t) eqn:Q; try discriminate.
      * inv_some E s'. apply (Ctl_move false s _ t); auto.
        -- intros u U. rewrite pcs_set. destruct (Nat.eqb_spec u t); [ contradiction | auto ].
        -- intros _. rewrite pcs_set, Nat.eqb_refl. cbn [set_pc set_mx mx]. unfold ctl in *.
           destruct V3 as [V3|(V3 & [V4|V4])]; rewrite ?V3; auto; rewrite V4 in Ct; rewrite andb_false_r in Ct; discriminate.
      * destruct (is_out (at_ (thr m t))) eqn:D.
        -- inv_some E s'. assert (D' : at_ (thr m t) = Out) by (destruct (at_ (thr m t)); try discriminate; auto).
           rewrite finish_eq; unfold unregister; rewrite ?mx_cv; cbn [set_mx mx]; auto.
           apply (Ctl_move false s _ t); auto.
           ++ cbn [set_pc set_mx mx]. eapply frame_trans; [ exact F | apply frame_set ].
           ++ intros u U. rewrite pcs_set, pcs_mx, pcs_cv. destruct (Nat.eqb_spec u t); [ contradiction | auto ].
           ++ intros _. rewrite pcs_set, Nat.eqb_refl. cbn [set_pc set_mx mx]. rewrite thr_set, Nat.eqb_refl. reflexivity.
        -- inv_some E s'. apply (Ctl_move false s _ t); auto.
           ++ intros u U. rewrite pcs_set. destruct (Nat.eqb_spec u t); [ contradiction | auto ].
           ++ intros _. rewrite pcs_set, Nat.eqb_refl. cbn [set_pc set_mx mx]. unfold ctl in *.
              destruct V3 as [V3|(V3 & [V4|V4])]; [ rewrite V3 in D; discriminate | .. ];
                rewrite V3, V2; rewrite V4 in Ct; apply andb_true_iff in Ct as (-> & _); auto.
      * inv_some E s'. apply (Ctl_move false s _ t); auto.
        -- intros u U. rewrite pcs_set. destruct (Nat.eqb_spec u t); [ contradiction | auto ].
        -- intros _. rewrite pcs_set, Nat.eqb_refl. cbn [set_pc set_mx mx]. unfold ctl in *.
           destruct V3 as [V3|(V3 & [V4|V4])]; rewrite ?V3; auto; rewrite V4 in Ct; rewrite andb_false_r in Ct; discriminate.
  - cbn [step] in E. inv_some E s'. eapply Ctl_data; [ eauto | apply quiet_wakeup | reflexivity ].
  - destruct (qout (pcs s t)) eqn:Q; [ | discriminate ].
    destruct (step false (mx s) (Consume t)) as [m|] eqn:L; [ | discriminate ]. inv_some E s'.
    cbn [step] in L. destruct (is_out _); [ | discriminate ]. inv_some L m.
    eapply Ctl_data; [ eauto | | reflexivity ]. intros u. cbn [set_mx mx]. rewrite thr_set.
    destruct (Nat.eqb_spec u t) as [U|U]; [ subst; cbn; auto | auto ].
  - destruct (step false (mx s) (Report t)) as [m|] eqn:L; [ | discriminate ]. inv_some E s'.
    pose proof (frame_step _ _ _ L) as F. apply (Ctl_move c s _ t); auto. intros A. cbn [set_mx mx] in *. rewrite pcs_mx.
    cbn [step] in L. destruct (at_ (thr (mx s) t)) eqn:P; try discriminate. destruct (alive (thr (mx s) t)) eqn:B; [ | discriminate ].
    inv_some L m. specialize (C t B). unfold ctl in *. rewrite P in C. rewrite thr_set, Nat.eqb_refl. cbn. exact C.
  - destruct (qout (pcs s t)) eqn:Q; [ | discriminate ].
    destruct (step false (mx s) (Die t)) as [m|] eqn:L; [ | discriminate ]. inv_some E s'.
    pose proof (frame_step _ _ _ L) as F. apply (Ctl_move c s _ t); auto. intros A. cbn [set_mx mx] in *.
    cbn [step] in L. destruct (_ && _); [ | discriminate ]. inv_some L m. rewrite thr_set, Nat.eqb_refl in A. discriminate A.
  - destruct (step false (mx s) (Fork t)) as [m|] eqn:L; [ | discriminate ]. inv_some E s'.
    pose proof (frame_step _ _ _ L) as F. apply (Ctl_move c s _ t); auto. intros A. cbn [set_mx mx] in *. rewrite pcs_mx.
    cbn [step] in L. destruct (alive (thr (mx s) t)) eqn:B; [ | discriminate ]. inv_some L m. cbn [thr]. rewrite Nat.eqb_refl.
    apply C; auto.
Qed.

(** ** Who is left alone by a step *)
Definition qname (l : qlabel) : nat :=
  match l with
  | Call t _ | QRun t _ | QUnwind t | QWakeup t _ | QConsume t | QReport t | QDie t | QFork t => t
  end.
Lemma mstar_frame : forall t m m', mstar (fun _ l => names l = t \/ exists u p, l = Wakeup u p) m m' -> frame m m' t.
Proof.
  intros t m m' S. induction S as [|m1 m2 m3 l S IH K E]; [ apply frame_refl | ].
  eapply frame_trans; [ exact IH | ]. destruct K as [K|(u & p & K)]; [ subst t; apply frame_step; auto | ].
  subst l. cbn [step] in E. inv_some E m3. apply quiet_frame, quiet_wakeup.
Qed.
Lemma turn_frame : forall s t timed s', turn s t timed = Some s' -> frame (mx s) (mx s') t.
Proof. intros s t timed s' E. apply mstar_frame. eapply turn_mstar; eauto; cbn; eauto. Qed.

Lemma finish_pcs : forall s t r u, u <> t -> pcs (finish s t r) u = pcs s u.
Proof.
  intros s t r u U. unfold finish. destruct (step _ _ _); auto. rewrite pcs_set.
  destruct (Nat.eqb_spec u t); [ contradiction | auto ].
Qed.
Lemma set_pc_other : forall s t p u, u <> t -> pcs (set_pc s t p) u = pcs s u.
Proof. intros s t r u U. rewrite pcs_set. destruct (Nat.eqb_spec u t); [ contradiction | auto ]. Qed.
Lemma turn_pcs : forall s t timed s' u, turn s t timed = Some s' -> u <> t -> pcs s' u = pcs s u.
Proof.
  intros s t timed s' u E U. unfold turn in E. destruct (pcs s t) as [|o| | |r|o|o|o|o|v|r] eqn:K; try discriminate.
  - destruct o as [x nb|nb| | |m].
    + destruct (closed s); [ inv_some E s'; rewrite finish_pcs; auto | ].
      destruct (full s); [ destruct nb; [ | destruct timed ] | ]; inv_some E s'; rewrite ?finish_pcs, ?set_pc_other; auto.
    + destruct (items s); [ destruct nb; [ | destruct (closed s); [ | destruct timed ] ] | ]; inv_some E s';
        rewrite ?finish_pcs, ?set_pc_other; auto.
    + destruct (closed s); inv_some E s'; rewrite ?finish_pcs, ?set_pc_other; auto.
    + destruct (cap s); inv_some E s'; rewrite ?finish_pcs, ?set_pc_other; auto.
    + destruct (cap s); [ destruct (Nat.ltb n m) | ]; inv_some E s'; rewrite ?finish_pcs, ?set_pc_other; auto.
  - pose proof (signal_pcs s CPop) as S2. destruct (signal s CPop) as (s1, again). cbn [fst] in *.
    destruct again; inv_some E s'; rewrite ?finish_pcs; congruence.
  - destruct (items s); destruct (cap s); inv_some E s'; rewrite ?finish_pcs, ?set_pc_other; auto.
  - pose proof (signal_pcs s CPush) as S2. destruct (signal s CPush) as (s1, again). cbn [fst] in *.
    destruct again; inv_some E s'; rewrite ?finish_pcs; congruence.
  - inv_some E s'. rewrite set_pc_other, pcs_cv; auto.
  - destruct (step false (mx s) (Sleep t)) as [m|]; [ | discriminate ].
    destruct (is_out _); inv_some E s'; rewrite ?finish_pcs, ?set_pc_other; auto. unfold unregister. apply pcs_cv.
  - inv_some E s'. rewrite set_pc_other; auto. apply pcs_cv.
  - inv_some E s'. rewrite finish_pcs; auto. apply pcs_cv.
  - destruct (cv s v); [ destruct v; [ destruct (cap s) | ] | ]; inv_some E s'; rewrite ?finish_pcs, ?set_pc_other, ?signal_pcs; auto.
  - inv_some E s'. rewrite set_pc_other; auto. destruct r; auto.
Qed.

(** Everything but the Mutex, the places and the waiters. *)
Definition same_data (s s' : qstate) : Prop :=
  items s' = items s /\ closed s' = closed s /\ cap s' = cap s /\ pushed s' = pushed s /\ gone s' = gone s /\ got s' = got s.
Lemma same_refl : forall s, same_data s s.
Proof. intros s; repeat split. Qed.
Lemma same_finish : forall s t r, same_data s (finish s t r).
Proof. intros s t r. unfold finish. destruct (step _ _ _); repeat split. Qed.
Lemma same_trans : forall a b c, same_data a b -> same_data b c -> same_data a c.
Proof. intros a b c (A1 & A2 & A3 & A4 & A5 & A6) (B1 & B2 & B3 & B4 & B5 & B6). repeat split; congruence. Qed.
Lemma same_cv : forall s c l, same_data s (set_cv s c l).
Proof. intros s [] l; repeat split. Qed.
Lemma same_pc : forall s t p, same_data s (set_pc s t p).
Proof. repeat split. Qed.
Lemma same_mx : forall s m, same_data s (set_mx s m).
Proof. repeat split. Qed.
Lemma same_signal : forall s c, same_data s (fst (signal s c)).
Proof.
  intros s c. unfold signal. destruct (cv s c); [ apply same_refl | ].
  destruct (alive _); cbn [fst]; [ eapply same_trans; [ | apply same_mx ] | ]; apply same_cv.
Qed.

Ltac same_env E s' :=
  right; repeat match type of E with
    | match ?x with Some _ => _ | None => _ end = _ => destruct x
    | (if ?b then _ else _) = _ => destruct b
    | None = _ => discriminate E
    end; inv_some E s'; split; [ repeat split | auto ].

(** Steps other than [turn] leave the data alone. *)
Lemma qstep_cases : forall s l s', qstep s l = Some s' ->
  (exists t timed, l = QRun t timed /\ alive (thr (mx s) t) = true /\ at_ (thr (mx s) t) = Out /\ turn s t timed = Some s') \/
  (same_data s s' /\ (forall u, u <> qname l -> pcs s' u = pcs s u) /\
   ((pcs s' (qname l) = pcs s (qname l)) \/ (exists o, pcs s' (qname l) = Body o /\ pcs s (qname l) = QOut) \/
    (exists t, l = QUnwind t /\ (pcs s' t = QOut \/ pcs s' t = Fin RErr \/ exists o, pcs s' t = Raising o /\ pcs s t = Parked o)))).
Proof.
  intros s l s' E. destruct l; cbn [qstep qname] in *.
  - right. unfold qcall in E. destruct (pcs s t) eqn:P; try discriminate.
    destruct (step false (mx s) (Lock t)) as [m|]; [ | discriminate ].
    destruct (is_out _); inv_some E s'; (split; [ repeat split | ]); [ auto | ].
    split; [ intros u U; rewrite set_pc_other; auto | ]. right; left. exists o. rewrite pcs_set, Nat.eqb_refl. auto.
  - unfold qrun in E. destruct (alive _) eqn:A; [ | discriminate ]. destruct (at_ (thr (mx s) t)) eqn:P; cbn [is_out] in E;
    [ left; eauto 6 | right .. ]; (destruct (step false (mx s) (Run t)) as [m|]; [ | discriminate ]); inv_some E s';
    split; [ repeat split | auto | repeat split | auto | repeat split | auto | repeat split | auto | repeat split | auto
           | repeat split | auto | repeat split | auto | repeat split | auto | repeat split | auto ].
  - right. unfold qunwind in E. destruct (alive _) eqn:A; [ | discriminate ].
    assert (F : forall s1 r, alive (thr (mx s1) t) = true -> at_ (thr (mx s1) t) = Out -> pcs (finish s1 t r) t = Fin r).
    { intros s1 r B P. rewrite finish_eq; auto. rewrite pcs_set, Nat.eqb_refl. auto. }
    destruct (is_out (at_ (thr (mx s) t))) eqn:P.
    + assert (P' : at_ (thr (mx s) t) = Out) by (destruct (at_ (thr (mx s) t)); try discriminate; auto).
      destruct (pcs s t) eqn:Q; try discriminate; inv_some E s';
        try (split; [ apply same_finish | split; [ intros u U; rewrite finish_pcs; auto | right; right; exists t; rewrite F; auto ] ]);
        try (split; [ eapply same_trans; [ | apply same_finish ]; apply same_cv | split;
               [ intros u U; rewrite finish_pcs; auto; apply pcs_cv
               | right; right; exists t; rewrite F; unfold unregister; rewrite ?mx_cv; auto ] ]).
      split; [ apply same_refl | auto ].
    + destruct (step false (mx s) (Unwind t)) as [m|] eqn:L; [ | discriminate ].
      assert (B : alive (thr m t) = true).
      { cbn [step] in L. rewrite A in L. unfold unwind in L. cbn [at_ set_parked] in L.
        destruct (at_ (thr (mx s) t)) as [|[]|[]|[]|[]|[]|k|k| |]; try discriminate; inv_some L m;
          rewrite ?thr_set, ?Nat.eqb_refl; auto. }
      destruct (pcs s t) eqn:Q; try discriminate.
      * inv_some E s'. split; [ repeat split | ]. split; [ intros u U; rewrite set_pc_other; auto | ].
        right; right. exists t. rewrite pcs_set, Nat.eqb_refl. auto.
      * destruct (is_out (at_ (thr m t))) eqn:P2; inv_some E s'.
        -- assert (P' : at_ (thr m t) = Out) by (destruct (at_ (thr m t)); try discriminate; auto).
           split; [ eapply same_trans; [ | apply same_finish ]; eapply same_trans; [ apply same_mx | apply same_cv ] | ].
           split; [ intros u U; rewrite finish_pcs; auto; unfold unregister; rewrite pcs_cv; auto | ].
           right; right. exists t. rewrite F; unfold unregister; rewrite ?mx_cv; auto.
        -- split; [ repeat split | ]. split; [ intros u U; rewrite set_pc_other; auto | ].
           right; right. exists t. rewrite pcs_set, Nat.eqb_refl. eauto 6.
      * inv_some E s'. split; [ repeat split | ]. split; [ intros u U; rewrite set_pc_other; auto | ].
        right; right. exists t. rewrite pcs_set, Nat.eqb_refl. auto.
  - same_env E s'.
  - same_env E s'.
  - same_env E s'.
  - same_env E s'.
  - same_env E s'.
Qed.

(** ** Invariants of all histories *)
Lemma base : forall m ok s, qhistory m ok s -> history false anything (mx s) /\ Ctl false s.
Proof.
  intros m ok s H. induction H as [|s l s' H (IH1 & IH2) K E].
  - split; [ constructor | ]. intros t _. reflexivity.
  - split; [ eapply mstar_history; [ exact IH1 | eapply qstep_mstar; eauto ] | ].
    eapply step_Ctl; [ exact IH2 | eapply history_Own; eauto | exact I | exact E ].
Qed.

(** What a thread has seen under the lock still holds. *)
Definition data (s : qstate) (p : qpc) : Prop :=
  match p with
  | Take => items s <> []
  | PopSig r => exists x, r = RItem x
  | Wait (Pop _) | Reg (Pop _) => items s = [] /\ closed s = false
  | Wait (Push _ _) | Reg (Push _ _) => full s = true /\ closed s = false
  | Wait _ | Reg _ | Parked Close | Parked Clear | Parked (Resize _) | Raising Close | Raising Clear | Raising (Resize _) => False
  | _ => True
  end.
Definition Dt (s : qstate) : Prop := forall u, alive (thr (mx s) u) = true -> data s (pcs s u).

Lemma excl : forall c s t u, Ctl c s -> Own (mx s) -> alive (thr (mx s) t) = true -> holds (thr (mx s) t) = true ->
  alive (thr (mx s) u) = true -> critical (pcs s u) = true -> t = u.
Proof.
  intros c s t u C (O & _) A H B K. destruct (critical_holds c _ _ (C u B) K) as (_ & H').
  destruct (O t H), (O u H'). congruence.
Qed.

Lemma data_other : forall s s' p, data s p -> critical p = false -> data s' p.
Proof. intros s s' [|[]| | |r|[]|[]|[]|[]|v|r] D K; cbn in *; auto; discriminate. Qed.
Lemma data_same3 : forall s s' p, data s p -> items s' = items s -> closed s' = closed s -> cap s' = cap s -> data s' p.
Proof.
  intros s s' p D S1 S2 S3. assert (F : full s' = full s) by (unfold full; rewrite S1, S3; auto).
  destruct p as [|[]| | |r|[]|[]|[]|[]|v|r]; cbn in *; rewrite ?S1, ?S2, ?F; auto.
Qed.

Lemma finish_at : forall s t r, alive (thr (mx s) t) = true -> at_ (thr (mx s) t) = Out -> pcs (finish s t r) t = Fin r.
Proof. intros s t r B P. rewrite finish_eq; auto. rewrite pcs_set, Nat.eqb_refl. auto. Qed.

Lemma data_same : forall s s' p, data s p -> same_data s s' -> data s' p.
Proof. intros s s' p D (S1 & S2 & S3 & _). eapply data_same3; eauto. Qed.

(** The place of [t] after a step of its own. *)
Lemma turn_data : forall s t timed s', alive (thr (mx s) t) = true -> at_ (thr (mx s) t) = Out ->
  data s (pcs s t) -> turn s t timed = Some s' -> data s' (pcs s' t).
Proof.
  intros s t timed s' A P D E.
  assert (F : forall s1 r, quiet (mx s) (mx s1) -> pcs (finish s1 t r) t = Fin r).
  { intros s1 r Q. destruct (Q t) as (Q1 & Q2 & _). apply finish_at; congruence. }
  unfold turn in E. destruct (pcs s t) as [|o| | |r|o|o|o|o|v|r] eqn:K; try discriminate.
  - destruct o as [x nb|nb| | |m].
    + destruct (closed s) eqn:Q1; [ inv_some E s'; rewrite F; [ exact I | apply quiet_refl ] | ].
      destruct (full s) eqn:Q2; [ destruct nb; [ | destruct timed ] | ]; inv_some E s'; rewrite ?F, ?pcs_set, ?Nat.eqb_refl; cbn; auto using quiet_refl.
    + destruct (items s) eqn:Q1; [ destruct nb; [ | destruct (closed s) eqn:Q2; [ | destruct timed ] ] | ]; inv_some E s';
        rewrite ?F, ?pcs_set, ?Nat.eqb_refl; cbn; auto using quiet_refl. congruence.
    + destruct (closed s); inv_some E s'; rewrite ?F, ?pcs_set, ?Nat.eqb_refl; cbn; auto using quiet_refl.
    + destruct (cap s); inv_some E s'; rewrite ?F, ?pcs_set, ?Nat.eqb_refl; cbn; auto using quiet_refl.
    + destruct (cap s); [ destruct (Nat.ltb n m) | ]; inv_some E s'; rewrite ?F, ?pcs_set, ?Nat.eqb_refl; cbn; auto using quiet_refl.
  - pose proof (signal_pcs s CPop) as S2. pose proof (signal_quiet s CPop) as S3. destruct (signal s CPop) as (s1, again). cbn [fst] in *.
    destruct again; inv_some E s'; rewrite ?F; auto; try (rewrite S2, K); exact I.
  - cbn in D. destruct (items s); [ congruence | ]. destruct (cap s); inv_some E s'; rewrite ?F, ?pcs_set, ?Nat.eqb_refl; cbn; eauto using quiet_refl.
  - pose proof (signal_pcs s CPush) as S2. pose proof (signal_quiet s CPush) as S3. destruct (signal s CPush) as (s1, again). cbn [fst] in *.
    destruct again; inv_some E s'; rewrite ?F; auto; try exact I; rewrite S2, K; exact D.
  - inv_some E s'. rewrite pcs_set, Nat.eqb_refl. eapply data_same; [ | eapply same_trans; [ apply same_cv | apply same_pc ] ].
    exact D.
  - destruct (step false (mx s) (Sleep t)) as [m|]; [ | discriminate ].
    destruct (is_out _); inv_some E s'; rewrite ?F, ?pcs_set, ?Nat.eqb_refl; unfold unregister; rewrite ?mx_cv; auto using quiet_refl; [ exact I | ].
    destruct o; exact D || exact I.
  - inv_some E s'. rewrite pcs_set, Nat.eqb_refl. exact I.
  - inv_some E s'. rewrite F; [ exact I | ]. unfold unregister. rewrite mx_cv. apply quiet_refl.
  - destruct (cv s v); [ destruct v; [ destruct (cap s) | ] | ]; inv_some E s'; rewrite ?F, ?pcs_set, ?Nat.eqb_refl, ?signal_pcs, ?K; auto using quiet_refl; exact I.
  - inv_some E s'. rewrite pcs_set, Nat.eqb_refl. exact I.
Qed.

(** Whether a step of [t] touches the data, it holds the lock when it does. *)
Lemma turn_same_or_holds : forall c s t timed s', Ctl c s -> alive (thr (mx s) t) = true -> at_ (thr (mx s) t) = Out ->
  turn s t timed = Some s' -> (exists r, pcs s t = Fin r) \/ holds (thr (mx s) t) = true.
Proof.
  intros c s t timed s' C A P E. destruct (pcs s t) as [| | | | | | | | | |r] eqn:K; [ | right .. | left; eauto ].
  - unfold turn in E. rewrite K in E. discriminate.
  - eapply out_holds; [ apply C; eauto | auto | rewrite K; discriminate | intros; rewrite K; discriminate ].
  - eapply out_holds; [ apply C; eauto | auto | rewrite K; discriminate | intros; rewrite K; discriminate ].
  - eapply out_holds; [ apply C; eauto | auto | rewrite K; discriminate | intros; rewrite K; discriminate ].
  - eapply out_holds; [ apply C; eauto | auto | rewrite K; discriminate | intros; rewrite K; discriminate ].
  - eapply out_holds; [ apply C; eauto | auto | rewrite K; discriminate | intros; rewrite K; discriminate ].
  - eapply out_holds; [ apply C; eauto | auto | rewrite K; discriminate | intros; rewrite K; discriminate ].
  - eapply out_holds; [ apply C; eauto | auto | rewrite K; discriminate | intros; rewrite K; discriminate ].
  - eapply out_holds; [ apply C; eauto | auto | rewrite K; discriminate | intros; rewrite K; discriminate ].
  - eapply out_holds; [ apply C; eauto | auto | rewrite K; discriminate | intros; rewrite K; discriminate ].
Qed.

Lemma qstep_frame : forall s l s', qstep s l = Some s' -> forall u, u <> qname l -> alive (thr (mx s') u) = true -> alive (thr (mx s) u) = true.
Proof.
  intros s l s' E.
  assert (S : mstar (fun _ l' => names l' = qname l \/ exists u p, l' = Wakeup u p) (mx s) (mx s')).
  2:{ intros u U A. destruct (mstar_frame _ _ _ S u U A). auto. }
  destruct l; cbn [qstep qname] in *.
  - unfold qcall in E. destruct (pcs s t); try discriminate. destruct (step false (mx s) (Lock t)) as [m|] eqn:L; [ | discriminate ].
    destruct (is_out _); inv_some E s'; [ constructor | eapply mstar_one; [ | eauto ]; cbn; auto ].
  - unfold qrun in E. destruct (alive _); [ | discriminate ]. destruct (is_out _).
    + eapply turn_mstar; [ | | | eauto ]; cbn; eauto.
    + destruct (step false (mx s) (Run t)) as [m|] eqn:L; [ | discriminate ]. inv_some E s'. eapply mstar_one; [ | eauto ]; cbn; auto.
  - unfold qunwind in E. destruct (alive _); [ | discriminate ]. destruct (is_out _).
    + destruct (pcs s t); try discriminate; inv_some E s'; try (apply finish_mstar; [ cbn; auto | unfold unregister; rewrite ?mx_cv; constructor ]).
      constructor.
    + destruct (step false (mx s) (Unwind t)) as [m|] eqn:L; [ | discriminate ].
      assert (S : mstar (fun _ l' => names l' = t \/ exists u p, l' = Wakeup u p) (mx s) m) by (eapply mstar_one; [ | eauto ]; cbn; auto).
      destruct (pcs s t); try discriminate; try (inv_some E s'; exact S).
      destruct (is_out _); inv_some E s'; [ | exact S ]. apply finish_mstar; [ cbn; auto | ]. unfold unregister. rewrite mx_cv. exact S.
  - destruct (step false (mx s) (Wakeup t p)) as [m|] eqn:L; [ | discriminate ]. inv_some E s'. eapply mstar_one; [ | eauto ]; cbn; auto.
  - destruct (qout _); [ | discriminate ]. destruct (step false (mx s) (Consume t)) as [m|] eqn:L; [ | discriminate ].
    inv_some E s'. eapply mstar_one; [ | eauto ]; cbn; auto.
  - destruct (step false (mx s) (Report t)) as [m|] eqn:L; [ | discriminate ]. inv_some E s'. eapply mstar_one; [ | eauto ]; cbn; auto.
  - destruct (qout _); [ | discriminate ]. destruct (step false (mx s) (Die t)) as [m|] eqn:L; [ | discriminate ].
    inv_some E s'. eapply mstar_one; [ | eauto ]; cbn; auto.
  - destruct (step false (mx s) (Fork t)) as [m|] eqn:L; [ | discriminate ]. inv_some E s'. eapply mstar_one; [ | eauto ]; cbn; auto.
Qed.

Lemma qstep_alive_self : forall s l s', qstep s l = Some s' -> alive (thr (mx s') (qname l)) = true -> alive (thr (mx s) (qname l)) = true.
Proof.
  intros s l s' E A. destruct l; cbn [qstep qname] in *.
  - unfold qcall in E. destruct (pcs s t); try discriminate. cbn [step] in E. destruct (alive (thr (mx s) t)); [ auto | discriminate ].
  - unfold qrun in E. destruct (alive (thr (mx s) t)); [ auto | discriminate ].
  - unfold qunwind in E. destruct (alive (thr (mx s) t)); [ auto | discriminate ].
  - cbn [step] in E. inv_some E s'. cbn [set_mx mx] in A. destruct (quiet_wakeup (mx s) t p t). congruence.
  - destruct (qout _); [ | discriminate ]. cbn [step] in E. destruct (is_out _); [ | discriminate ]. inv_some E s'.
    cbn [set_mx mx] in A. rewrite thr_set, Nat.eqb_refl in A. auto.
  - cbn [step] in E. destruct (at_ _); try discriminate. destruct (alive (thr (mx s) t)); [ auto | discriminate ].
  - destruct (qout _); [ | discriminate ]. cbn [step] in E. destruct (alive (thr (mx s) t)); [ auto | discriminate ].
  - cbn [step] in E. destruct (alive (thr (mx s) t)); [ auto | discriminate ].
Qed.

Lemma step_Dt : forall c s l s', Ctl c s -> Own (mx s) -> Dt s -> qstep s l = Some s' -> Dt s'.
Proof.
  intros c s l s' C O D E u A.
  assert (A0 : alive (thr (mx s) u) = true).
  { destruct (Nat.eq_dec u (qname l)) as [U|U]; [ subst; eapply qstep_alive_self; eauto | eapply qstep_frame; eauto ]. }
  destruct (qstep_cases s l s' E) as [(t & timed & L & A1 & P1 & T)|(S & P & X)].
  - subst l. cbn [qname] in *. destruct (Nat.eq_dec u t) as [U|U].
    + subst u. eapply turn_data; eauto.
    + rewrite (turn_pcs _ _ _ _ _ T U). specialize (D u A0).
      destruct (turn_same_or_holds c s t timed s' C A1 P1 T) as [(r & K)|H].
      * unfold turn in T. rewrite K in T. inv_some T s'. eapply data_same3; [ exact D | .. ]; destruct r; reflexivity.
      * destruct (critical (pcs s u)) eqn:K; [ | eapply data_other; eauto ].
        destruct U. symmetry. eapply excl; eauto.
  - destruct (Nat.eq_dec u (qname l)) as [U|U]; [ subst u | rewrite P; auto; eapply data_same; eauto ].
    destruct X as [X|[(o & X & Y)|(t & -> & X)]].
    + rewrite X. eapply data_same; eauto.
    + rewrite X. exact I.
    + cbn [qname] in *. destruct X as [X|[X|(o & X & Y)]]; rewrite X; try exact I.
      specialize (D t A0). rewrite Y in D. destruct o; exact D || exact I.
Qed.

Lemma all_inv : forall m ok s, qhistory m ok s -> history false anything (mx s) /\ Ctl false s /\ Dt s.
Proof.
  intros m ok s H. induction H as [|s l s' H IH K E].
  - split; [ constructor | ]. split; intros t _; [ reflexivity | exact I ].
  - destruct IH as (I1 & I2 & I3). assert (O : Own (mx s)) by (eapply history_Own; eauto).
    split; [ eapply mstar_history; [ exact I1 | eapply qstep_mstar; eauto ] | ]. split.
    + eapply step_Ctl; [ exact I2 | exact O | exact I | exact E ].
    + eapply step_Dt; eauto.
Qed.

(** ** C25 *)
(** How a step of [t] changes the items. *)
Lemma turn_items : forall s t timed s', turn s t timed = Some s' ->
  (items s' = items s /\ pushed s' = pushed s /\ gone s' = gone s) \/
  (exists x, items s' = items s ++ [x] /\ pushed s' = pushed s ++ [x] /\ gone s' = gone s /\ full s = false /\ pcs s t = Body (Push x false) \/
             items s' = items s ++ [x] /\ pushed s' = pushed s ++ [x] /\ gone s' = gone s /\ full s = false /\ pcs s t = Body (Push x true)) \/
  (exists x, items s = x :: items s' /\ pushed s' = pushed s /\ gone s' = gone s ++ [(x, Some t)] /\ pcs s t = Take) \/
  (items s' = [] /\ pushed s' = pushed s /\ gone s' = gone s ++ map (fun x => (x, None)) (items s) /\ pcs s t = Body Clear).
Proof.
  intros s t timed s' E.
  assert (F : forall s1 r, same_data s s1 -> items (finish s1 t r) = items s /\ pushed (finish s1 t r) = pushed s /\ gone (finish s1 t r) = gone s).
  { intros s1 r S. destruct (same_trans _ _ _ S (same_finish s1 t r)) as (? & ? & ? & ? & ? & ?). auto. }
  assert (FI : forall s1 r, items (finish s1 t r) = items s1 /\ pushed (finish s1 t r) = pushed s1 /\ gone (finish s1 t r) = gone s1).
  { intros s1 r. destruct (same_finish s1 t r) as (? & ? & ? & ? & ? & ?). auto. }
  unfold turn in E. destruct (pcs s t) as [|o| | |r|o|o|o|o|v|r] eqn:K; try discriminate.
  - destruct o as [x nb|nb| | |m].
    + destruct (closed s); [ inv_some E s'; left; apply F, same_refl | ].
      destruct (full s); [ destruct nb; [ | destruct timed ] | ]; inv_some E s'; try (left; apply F, same_refl); try (left; repeat split; fail).
      right; left. exists x. destruct nb; [ right | left ]; auto.
    + left. destruct (items s) eqn:Q; [ destruct nb; [ | destruct (closed s); [ | destruct timed ] ] | ]; inv_some E s';
        try (apply F, same_refl); cbn [set_pc items pushed gone]; auto.
    + left. destruct (closed s); inv_some E s'; try apply F, same_refl; repeat split.
    + right; right; right. destruct (cap s); inv_some E s'; [ auto | ].
      destruct (FI (set_items s [] (pushed s) (gone s ++ map (fun x => (x, None)) (items s))) ROk) as (-> & -> & ->). auto.
    + left. destruct (cap s); [ destruct (Nat.ltb n m) | ]; inv_some E s'; try (apply F, same_refl); try (repeat split; fail).
      destruct (FI (set_cap s m) ROk) as (-> & -> & ->). auto.
  - left. pose proof (same_signal s CPop) as S. destruct (signal s CPop) as (s1, again). cbn [fst] in S.
    destruct again; inv_some E s'; [ destruct S as (? & ? & ? & ? & ? & ?); auto | apply F; auto ].
  - destruct (items s) as [|x l] eqn:Q.
    + left. destruct (cap s); inv_some E s'; [ auto | apply F, same_refl ].
    + right; right; left. exists x. destruct (cap s); inv_some E s'; [ auto | ].
      destruct (FI (set_items s l (pushed s) (gone s ++ [(x, Some t)])) (RItem x)) as (-> & -> & ->). auto.
  - left. pose proof (same_signal s CPush) as S. destruct (signal s CPush) as (s1, again). cbn [fst] in S.
    destruct again; inv_some E s'; [ destruct S as (? & ? & ? & ? & ? & ?); auto | apply F; auto ].
  - left. inv_some E s'. destruct (cv_of o); auto.
  - left. destruct (step false (mx s) (Sleep t)) as [m|]; [ | discriminate ].
    destruct (is_out _); inv_some E s'; [ apply F, same_cv | auto ].
  - left. inv_some E s'. unfold unregister. destruct (cv_of o); auto.
  - left. inv_some E s'. apply F, same_cv.
  - left. destruct (cv s v); [ destruct v; [ destruct (cap s) | ] | ]; inv_some E s'; try (apply F, same_refl); auto.
    destruct (same_signal s v) as (? & ? & ? & ? & ? & ?); auto.
  - left. inv_some E s'. destruct r; auto.
Qed.

Lemma conserve : forall m ok s, qhistory m ok s -> pushed s = map fst (gone s) ++ items s.
Proof.
  intros m ok s H. induction H as [|s l s' H IH K E]; [ reflexivity | ].
  destruct (qstep_cases s l s' E) as [(t & timed & L & A1 & P1 & T)|((S1 & S2 & S3 & S4 & S5 & S6) & _)]; [ | congruence ].
  destruct (turn_items s t timed s' T) as [(-> & -> & ->)|[(x & [(-> & -> & -> & _)|(-> & -> & -> & _)])|[(x & Q & -> & -> & _)|(-> & -> & -> & _)]]]; auto.
  - rewrite IH, app_assoc; auto.
  - rewrite IH, app_assoc; auto.
  - rewrite IH, Q, map_app, <- app_assoc. reflexivity.
  - rewrite IH, map_app, map_map, map_id, app_nil_r. reflexivity.
Qed.

Lemma turn_results : forall s t timed s' r, alive (thr (mx s) t) = true -> at_ (thr (mx s) t) = Out ->
  turn s t timed = Some s' -> pcs s' t = Fin r \/ pcs s' t = PopSig r ->
  match pcs s t with
  | Body (Pop nb) => items s = [] /\ (nb = true /\ r = RErr \/ nb = false /\ r = RNil /\ (closed s = true \/ timed = true))
  | Body (Push x nb) => r = RErr \/ r = RNil /\ nb = false /\ full s = true /\ timed = true
  | Take => match items s with x :: _ => r = RItem x | [] => r = RNil end
  | PopSig r' => r = r'
  | _ => r = ROk \/ r = RErr
  end.
Proof.
  intros s t timed s' r A P E X.
  assert (F : forall s1 r', quiet (mx s) (mx s1) -> s' = finish s1 t r' -> r = r').
  { intros s1 r' Q Y. subst s'. destruct (Q t) as (Q1 & Q2 & _). rewrite finish_at in X; try congruence. destruct X; congruence. }
  assert (G : forall s1 p, s' = set_pc s1 t p -> p = Fin r \/ p = PopSig r).
  { intros s1 p Y. subst s'. rewrite pcs_set, Nat.eqb_refl in X. auto. }
  assert (N : forall s1 p, s' = set_pc s1 t p -> match p with Fin _ | PopSig _ => False | _ => True end -> False).
  { intros s1 p Y Z. destruct (G s1 p Y) as [->| ->]; contradiction. }
  unfold turn in E. destruct (pcs s t) as [|o| | |r0|o|o|o|o|v|r0] eqn:K; try discriminate.
  - destruct o as [x nb|nb| | |m].
    + destruct (closed s); [ left; eapply F; [ apply quiet_refl | congruence ] | ].
      destruct (full s); [ destruct nb; [ | destruct timed ] | ].
      * left; eapply F; [ apply quiet_refl | congruence ].
      * right. split; [ eapply F; [ apply quiet_refl | congruence ] | auto ].
      * exfalso. eapply N; [ assert (Q : s' = set_pc s t (Wait (Push x false))) by congruence; exact Q | exact I ].
      * exfalso. eapply N; [ assert (Q : s' = set_pc (set_items s (items s ++ [x]) (pushed s ++ [x]) (gone s)) t Sig) by congruence; exact Q | exact I ].
    + destruct (items s) eqn:QI; [ split; auto; destruct nb; [ | destruct (closed s); [ | destruct timed ] ] | ].
      * left. split; auto. eapply F; [ apply quiet_refl | congruence ].
      * right. split; auto. split; auto. eapply F; [ apply quiet_refl | congruence ].
      * right. split; auto. split; auto. eapply F; [ apply quiet_refl | congruence ].
      * exfalso. eapply N; [ assert (Q : s' = set_pc s t (Wait (Pop false))) by congruence; exact Q | exact I ].
      * exfalso. eapply N; [ assert (Q : s' = set_pc s t Take) by congruence; exact Q | exact I ].
    + destruct (closed s).
      * left. eapply F; [ apply quiet_refl | congruence ].
      * exfalso. eapply N; [ assert (Q : s' = set_pc (set_closed s) t (Cast CPop)) by congruence; exact Q | exact I ].
    + cbv zeta in E. destruct (cap s).
      * exfalso. match type of E with Some (set_pc ?y t ?p) = _ => apply (N y p); [ congruence | exact I ] end.
      * left. match type of E with Some (finish ?y t ?p) = _ => apply (F y p); [ apply quiet_refl | congruence ] end.
    + destruct (cap s); [ destruct (Nat.ltb n m) | ].
      * exfalso. match type of E with Some (set_pc ?y t ?p) = _ => apply (N y p); [ congruence | exact I ] end.
      * left. match type of E with Some (finish ?y t ?p) = _ => apply (F y p); [ apply quiet_refl | congruence ] end.
      * right. match type of E with Some (finish ?y t ?p) = _ => apply (F y p); [ apply quiet_refl | congruence ] end.
  - pose proof (signal_quiet s CPop) as S1. pose proof (signal_pcs s CPop) as S2.
    destruct (signal s CPop) as (s1, again). cbn [fst] in *. destruct again.
    + inv_some E s'. rewrite S2, K in X. destruct X; discriminate.
    + left. apply (F s1 ROk); auto. congruence.
  - destruct (items s) eqn:Q; destruct (cap s).
    + destruct (G s (PopSig RNil)) as [Y|Y]; congruence.
    + apply (F s RNil); [ apply quiet_refl | congruence ].
    + match type of E with Some (set_pc ?y t ?p) = _ => destruct (G y p) as [Y|Y]; congruence end.
    + match type of E with Some (finish ?y t ?p) = _ => apply (F y p); [ apply quiet_refl | congruence ] end.
  - pose proof (signal_quiet s CPush) as S1. pose proof (signal_pcs s CPush) as S2.
    destruct (signal s CPush) as (s1, again). cbn [fst] in *. destruct again.
    + inv_some E s'. rewrite S2, K in X. destruct X; congruence.
    + apply (F s1 r0); auto. congruence.
  - exfalso. match type of E with Some (set_pc ?y t ?p) = _ => apply (N y p); [ congruence | exact I ] end.
  - destruct (step false (mx s) (Sleep t)) as [m|]; [ | discriminate ]. destruct (is_out _).
    + right. match type of E with Some (finish ?y t ?p) = _ => apply (F y p); [ | congruence ] end.
      unfold unregister. rewrite mx_cv. apply quiet_refl.
    + exfalso. match type of E with Some (set_pc ?y t ?p) = _ => apply (N y p); [ congruence | exact I ] end.
  - exfalso. match type of E with Some (set_pc ?y t ?p) = _ => apply (N y p); [ congruence | exact I ] end.
  - right. match type of E with Some (finish ?y t ?p) = _ => apply (F y p); [ | congruence ] end.
    unfold unregister. rewrite mx_cv. apply quiet_refl.
  - destruct (cv s v).
    + destruct v; [ destruct (cap s) | ].
      * exfalso. match type of E with Some (set_pc ?y t ?p) = _ => apply (N y p); [ congruence | exact I ] end.
      * left. apply (F s ROk); [ apply quiet_refl | congruence ].
      * left. apply (F s ROk); [ apply quiet_refl | congruence ].
    + inv_some E s'. rewrite signal_pcs, K in X. destruct X; discriminate.
  - exfalso. match type of E with Some (set_pc ?y t ?p) = _ => apply (N y p); [ congruence | exact I ] end.
Qed.

Lemma nil_only : forall m ok s l s' t, qhistory m ok s -> qstep s l = Some s' ->
  pcs s' t = Fin RNil -> pcs s t <> Fin RNil ->
  (pcs s t = Body (Pop false) /\ items s = [] /\ (closed s = true \/ l = QRun t true)) \/
  (exists x, pcs s t = Body (Push x false) /\ full s = true /\ l = QRun t true).
Proof.
  intros m ok s l s' t H E R N. destruct (all_inv m ok s H) as (_ & _ & D).
  destruct (qstep_cases s l s' E) as [(u & timed & L & A1 & P1 & T)|(S & P & X)].
  - destruct (Nat.eq_dec t u) as [U|U]; [ subst u | rewrite (turn_pcs _ _ _ _ _ T U) in R; contradiction ].
    pose proof (turn_results s t timed s' RNil A1 P1 T (or_introl R)) as Q. specialize (D t A1).
    destruct (pcs s t) as [|o| | |r0|o|o|o|o|v|r0] eqn:K; try (destruct Q; discriminate).
    + destruct o; try (destruct Q; discriminate).
      * destruct Q as [Q|(_ & -> & F & ->)]; [ discriminate | ]. right. eauto.
      * destruct Q as (Q & [(_ & ?)|(-> & _ & C)]); [ discriminate | ]. left. split; auto. split; auto.
        destruct C as [C| ->]; auto.
    + cbn in D. destruct (items s); [ congruence | discriminate ].
    + cbn in D. destruct D. congruence.
  - destruct (Nat.eq_dec t (qname l)) as [U|U]; [ subst t | rewrite P in R; auto; contradiction ].
    destruct X as [X|[(o & X & Y)|(t & -> & X)]]; [ congruence | congruence | ].
    cbn [qname] in *. destruct X as [X|[X|(o & X & Y)]]; congruence.
Qed.

(** What a pop has taken, it returns. *)
Lemma turn_got : forall s t timed s', turn s t timed = Some s' ->
  (got s' = got s /\ forall x, pcs s t <> Fin (RItem x)) \/
  (exists x, pcs s t = Fin (RItem x) /\ got s' = got s ++ [(t, x)] /\ pcs s' t = QOut).
Proof.
  intros s t timed s' E.
  assert (F : forall s1 r, got (finish s1 t r) = got s1) by (intros; apply same_finish).
  unfold turn in E. destruct (pcs s t) as [|o| | |r|o|o|o|o|v|r] eqn:K; try discriminate;
    try (left; split; [ | discriminate ]).
  - destruct o as [x nb|nb| | |m].
    + destruct (closed s); [ inv_some E s'; apply F | ].
      destruct (full s); [ destruct nb; [ | destruct timed ] | ]; inv_some E s'; rewrite ?F; auto.
    + destruct (items s) eqn:Q; [ destruct nb; [ | destruct (closed s); [ | destruct timed ] ] | ]; inv_some E s'; rewrite ?F; auto.
    + destruct (closed s); inv_some E s'; rewrite ?F; auto.
    + destruct (cap s); inv_some E s'; rewrite ?F; auto.
    + destruct (cap s); [ destruct (Nat.ltb n m) | ]; inv_some E s'; rewrite ?F; auto.
  - destruct (same_signal s CPop) as (_ & _ & _ & _ & _ & S). destruct (signal s CPop) as (s1, again). cbn [fst] in S.
    destruct again; inv_some E s'; rewrite ?F; auto.
  - destruct (items s); destruct (cap s); inv_some E s'; rewrite ?F; auto.
  - destruct (same_signal s CPush) as (_ & _ & _ & _ & _ & S). destruct (signal s CPush) as (s1, again). cbn [fst] in S.
    destruct again; inv_some E s'; rewrite ?F; auto.
  - inv_some E s'. destruct (cv_of o); auto.
  - destruct (step false (mx s) (Sleep t)) as [m|]; [ | discriminate ].
    destruct (is_out _); inv_some E s'; rewrite ?F; unfold unregister; destruct (cv_of o); auto.
  - inv_some E s'. unfold unregister. destruct (cv_of o); auto.
  - inv_some E s'. rewrite F. unfold unregister. destruct (cv_of o); auto.
  - destruct (cv s v); [ destruct v; [ destruct (cap s) | ] | ]; inv_some E s'; rewrite ?F; auto. apply same_signal.
  - inv_some E s'. destruct r; [ left; split; [ reflexivity | discriminate ] | right | left; split; [ reflexivity | discriminate ] .. ].
    exists x. rewrite pcs_set, Nat.eqb_refl. auto.
Qed.

Lemma taken_app : forall s s' t e, gone s' = gone s ++ e -> taken s' t = taken s t ++ map fst (filter (is_pop t) e).
Proof. intros s s' t e Q. unfold taken. rewrite Q, filter_app, map_app. auto. Qed.
Lemma in_hand_of : forall p q t s s', pcs s t = p -> pcs s' t = q ->
  match p with PopSig (RItem x) | Fin (RItem x) => [x] | _ => [] end = match q with PopSig (RItem x) | Fin (RItem x) => [x] | _ => [] end ->
  in_hand s' t = in_hand s t.
Proof. intros p q t s s' P Q E. unfold in_hand. rewrite P, Q. auto. Qed.

Lemma filter_clear : forall t l, filter (is_pop t) (map (fun x : nat => (x, None)) l) = [].
Proof. induction l; cbn; auto. Qed.

Lemma delivered : forall m s t, qhistory m no_loss s -> taken s t = returned s t ++ in_hand s t.
Proof.
  intros m s t H. induction H as [|s l s' H IH K E]; [ reflexivity | ].
  destruct (all_inv m no_loss s H) as (_ & _ & D).
  destruct (qstep_cases s l s' E) as [(u & timed & L & A1 & P1 & T)|((S1 & S2 & S3 & S4 & S5 & S6) & P & X)].
  - destruct (Nat.eq_dec t u) as [U|U].
    + subst u. specialize (D t A1).
      assert (OTH : (forall r, pcs s t <> Fin r) -> pcs s t <> Take -> (forall r, pcs s t <> PopSig r) ->
                    taken s' t = returned s' t ++ in_hand s' t).
      { intros N1 N2 N3. destruct (turn_got s t timed s' T) as [(G1 & G2)|(x & G1 & _)]; [ | destruct (N1 _ G1) ].
        assert (H0 : in_hand s t = []).
        { unfold in_hand. destruct (pcs s t); auto; [ destruct (N3 r); auto | destruct (N1 r); auto ]. }
        assert (H1 : in_hand s' t = []).
        { unfold in_hand. pose proof (turn_results s t timed s') as Q. specialize (fun r => Q r A1 P1 T).
          destruct (pcs s' t) as [| | | |[]| | | | | |[]]; auto; exfalso; specialize (Q (RItem x)); cbn in Q;
          (destruct (pcs s t) as [|[]| | | | | | | | |]; try congruence;
           try (destruct (Q (or_introl eq_refl)); discriminate); try (destruct (Q (or_intror eq_refl)); discriminate)).
          all: try (destruct (Q (or_introl eq_refl)) as [Q1|(Q1 & _)]; discriminate).
          all: try (destruct (Q (or_intror eq_refl)) as [Q1|(Q1 & _)]; discriminate).
          all: try (destruct (Q (or_introl eq_refl)) as (_ & [(_ & Q1)|(_ & Q1 & _)]); discriminate).
          all: try (destruct (Q (or_intror eq_refl)) as (_ & [(_ & Q1)|(_ & Q1 & _)]); discriminate).
          all: try (destruct (N3 r); auto; fail).
          all: destruct (N1 r); auto. }
        unfold returned. rewrite G1, H1. rewrite H0 in IH.
        destruct (turn_items s t timed s' T) as [(I1 & I2 & I3)|[(x & [(I1 & I2 & I3 & I4)|(I1 & I2 & I3 & I4)])|[(x & I1 & I2 & I3 & I4)|(I1 & I2 & I3 & I4)]]];
          [ unfold taken; rewrite I3; exact IH .. | contradiction | ].
        rewrite (taken_app _ _ _ _ I3), filter_clear. cbn [map]. rewrite !app_nil_r in *. exact IH. }
      destruct (pcs s t) as [| | | |r| | | | | |r] eqn:K2; try (apply OTH; congruence).
      * (* Take *)
        cbn in D. unfold turn in T. rewrite K2 in T. destruct (items s) as [|x xs] eqn:Q; [ congruence | ].
        unfold in_hand in IH. rewrite K2, app_nil_r in IH.
        assert (S' : gone s' = gone s ++ [(x, Some t)] /\ got s' = got s /\ in_hand s' t = [x]).
        { destruct (cap s); inv_some T s'.
          - unfold in_hand. rewrite pcs_set, Nat.eqb_refl. auto.
          - destruct (same_finish (set_items s xs (pushed s) (gone s ++ [(x, Some t)])) t (RItem x)) as (_ & _ & _ & _ & Z1 & Z2).
            rewrite Z1, Z2. unfold in_hand. rewrite finish_at; auto. }
        destruct S' as (Z1 & Z2 & ->). rewrite (taken_app _ _ _ _ Z1). unfold returned in *. rewrite Z2, <- IH.
        cbn. rewrite Nat.eqb_refl. reflexivity.
      * (* PopSig *)
        cbn in D. destruct D as (x & ->). unfold turn in T. rewrite K2 in T.
        pose proof (signal_pcs s CPush) as Z. pose proof (signal_quiet s CPush) as Z2. pose proof (same_signal s CPush) as Z3.
        destruct (signal s CPush) as (s1, again). cbn [fst] in *.
        assert (S' : same_data s s' /\ in_hand s' t = [x]).
        { destruct again; inv_some T s'; [ split; auto; unfold in_hand; rewrite Z, K2; auto | ].
          split; [ eapply same_trans; [ exact Z3 | apply same_finish ] | ]. destruct (Z2 t) as (Z4 & Z5 & _).
          unfold in_hand. rewrite finish_at; congruence. }
        destruct S' as ((_ & _ & _ & _ & Y1 & Y2) & ->). unfold taken, returned in *. rewrite Y1, Y2, IH. f_equal.
        unfold in_hand. rewrite K2. auto.
      * (* Fin *)
        unfold turn in T. rewrite K2 in T. inv_some T s'. unfold in_hand in *. rewrite pcs_set, Nat.eqb_refl. rewrite K2 in IH.
        destruct r; try exact IH. change (taken s t = returned (set_got s (got s ++ [(t, x)])) t ++ []).
        unfold returned in *. cbn [set_got got]. rewrite filter_app, map_app, app_nil_r. cbn. rewrite Nat.eqb_refl. exact IH.
    + assert (IN : in_hand s' t = in_hand s t) by (unfold in_hand; rewrite (turn_pcs _ _ _ _ _ T U); auto). rewrite IN.
      assert (UT : Nat.eqb u t = false) by (apply Nat.eqb_neq; congruence).
      assert (RT : returned s' t = returned s t).
      { destruct (turn_got s u timed s' T) as [(G1 & _)|(x & _ & G1 & _)]; unfold returned; rewrite G1; auto.
        rewrite filter_app. cbn. rewrite UT, app_nil_r. auto. }
      rewrite RT, <- IH.
      destruct (turn_items s u timed s' T) as [(I1 & I2 & I3)|[(x & [(I1 & I2 & I3 & I4)|(I1 & I2 & I3 & I4)])|[(x & I1 & I2 & I3 & I4)|(I1 & I2 & I3 & I4)]]];
        [ unfold taken; rewrite I3; auto .. | | ]; rewrite (taken_app _ _ _ _ I3).
      * cbn. rewrite UT. cbn. apply app_nil_r.
      * rewrite filter_clear. apply app_nil_r.
  - unfold taken, returned in *. rewrite S5, S6, IH. f_equal.
    destruct (Nat.eq_dec t (qname l)) as [U|U]; [ subst t | unfold in_hand; rewrite P; auto ].
    destruct X as [X|[(o & X & Y)|(t & -> & X)]].
    + unfold in_hand. rewrite X. auto.
    + unfold in_hand. rewrite X, Y. auto.
    + cbn [qname] in *. unfold in_hand. cbn in K.
      destruct X as [X|[X|(o & X & Y)]]; rewrite X; destruct (pcs s t) as [| | | |r| | | | | |[]]; auto; try contradiction.
Qed.

(** ** C54 *)
Lemma room_first : forall s l s' m, qstep s l = Some s' -> cap s = Some m -> length (items s) < length (items s') ->
  length (items s') <= m.
Proof.
  intros s l s' m E C L.
  destruct (qstep_cases s l s' E) as [(u & timed & L1 & A1 & P1 & T)|((S1 & _) & _)]; [ | rewrite S1 in L; lia ].
  destruct (turn_items s u timed s' T) as [(I1 & I2 & I3)|[(x & [(I1 & I2 & I3 & I4 & _)|(I1 & I2 & I3 & I4 & _)])|[(x & I1 & I2 & I3 & I4)|(I1 & I2 & I3 & I4)]]];
    rewrite I1 in *; try lia; try (cbn in L; lia); unfold full in I4; rewrite C in I4; apply negb_false_iff, Nat.ltb_lt in I4; rewrite app_length; cbn; lia.
Qed.

(** ** Waiting in calm histories (C53) *)
Definition wq (s : qstate) (u : nat) : Prop :=
  forall o, pcs s u = Parked o -> ~ In u (cv s (cv_of o)) ->
    match at_ (thr (mx s) u) with
    | UEntry KSleep => False
    | SReg => permit (thr (mx s) u) = true
    | SPark => parked (thr (mx s) u) = false
    | _ => True
    end.
Definition waits (p : qpc) : bool := match p with Reg _ | Parked _ | Raising _ => true | _ => false end.

(** The lists of waiters. *)
Record WP (s : qstate) : Prop := {
  wp_dead : forall t, alive (thr (mx s) t) = false -> pcs s t = QOut;
  wp_raise : forall t o, pcs s t <> Raising o;
  wp_mem : forall c t, In t (cv s c) -> exists o, (pcs s t = Reg o \/ pcs s t = Parked o) /\ cv_of o = c;
  wp_nodup : forall c, NoDup (cv s c);
  wp_reg : forall t o, pcs s t = Reg o -> In t (cv s (cv_of o));
  wp_wq : forall t, wq s t
}.

Definition mono (m m' : state) (u : nat) : Prop :=
  alive (thr m' u) = alive (thr m u) /\ at_ (thr m' u) = at_ (thr m u) /\
  (permit (thr m u) = true -> permit (thr m' u) = true) /\ (parked (thr m' u) = true -> parked (thr m u) = true).
Lemma mono_wakeup : forall m w p u, mono m (wakeup m w p) u.
Proof. intros m w p u. destruct (wakeup_thr m w p u) as (A & B & _ & _ & C & D). repeat split; auto. Qed.
Lemma mono_set : forall m t x u, u <> t -> mono m (set m t x) u.
Proof. intros m t x u U. unfold mono. rewrite thr_set. destruct (Nat.eqb_spec u t); [ contradiction | auto ]. Qed.
Lemma mono_trans : forall a b c u, mono a b u -> mono b c u -> mono a c u.
Proof. intros a b c u (A1 & A2 & A3 & A4) (B1 & B2 & B3 & B4). repeat split; auto; congruence. Qed.
Lemma mono_refl : forall a u, mono a a u.
Proof. repeat split; auto. Qed.

Lemma run_other : forall m t m' u, step false m (Run t) = Some m' -> u <> t -> mono m m' u.
Proof.
  intros m t m' u E U.
  assert (S : forall m0 x, thr (set m0 t x) u = thr m0 u).
  { intros m0 x. rewrite thr_set. destruct (Nat.eqb_spec u t); [ contradiction | auto ]. }
  assert (T : forall m0 k, mono m0 (unlock_turn m0 t k) u).
  { intros m0 k. unfold mono, unlock_turn. destruct (waiters m0) as [|w r]; [ rewrite S; auto | ].
    destruct (alive (thr (set_waiters m0 r) w)); rewrite S; auto. apply (mono_wakeup (set_waiters m0 r) w true u). }
  cbn [step] in E. destruct (alive _); [ | discriminate ]. unfold run in E.
  destruct (at_ (thr m t)); try discriminate;
    repeat match type of E with
    | match ?x with Some _ => _ | None => _ end = _ => destruct x
    | (if ?b then _ else _) = _ => destruct b
    | None = _ => discriminate E
    end; inv_some E m'; auto; try (unfold mono; rewrite ?S; auto; fail).
  specialize (T (set (set_owner m None) t (set_holds (thr m t) false)) k). unfold mono in *. rewrite S in *. auto.
Qed.

Lemma wq_mono : forall s s' u, wq s u -> mono (mx s) (mx s') u -> pcs s' u = pcs s u ->
  (forall c, In u (cv s c) -> In u (cv s' c)) -> wq s' u.
Proof.
  intros s s' u W (M1 & M2 & M3 & M4) P I o K N. rewrite P in K. specialize (W o K). rewrite M2.
  assert (N' : ~ In u (cv s (cv_of o))) by (intros X; apply N, I; auto). specialize (W N').
  destruct (at_ (thr (mx s) u)) as [| | | | | |[]| | |]; auto.
  destruct (parked (thr (mx s') u)); auto. rewrite M4 in W; auto.
Qed.

(** [t] moves between places that have nothing to do with waiting. *)
Lemma WP_move : forall s s' t, WP s -> (forall u, u <> t -> mono (mx s) (mx s') u) ->
  (forall u, u <> t -> pcs s' u = pcs s u) -> cvp s' = cvp s -> cvs s' = cvs s ->
  waits (pcs s t) = false -> waits (pcs s' t) = false ->
  (alive (thr (mx s') t) = false -> pcs s' t = QOut) -> WP s'.
Proof.
  intros s s' t [W1 W2 W3 W4 W5 W6] M P C1 C2 K K' L.
  assert (C : forall c, cv s' c = cv s c) by (intros []; cbn; auto).
  constructor.
  - intros u A. destruct (Nat.eq_dec u t) as [U|U]; [ subst; auto | ]. rewrite P; auto. apply W1.
    destruct (M u U) as (M1 & _). congruence.
  - intros u o Q. destruct (Nat.eq_dec u t) as [U|U]; [ subst; rewrite Q in K'; discriminate | ]. rewrite P in Q; auto. apply (W2 u o); auto.
  - intros c u I. rewrite C in I. destruct (W3 c u I) as (o & Q & R).
    destruct (Nat.eq_dec u t) as [U|U]; [ subst; destruct Q as [Q|Q]; rewrite Q in K; discriminate | ]. exists o. rewrite P; auto.
  - intros c. rewrite C; auto.
  - intros u o Q. destruct (Nat.eq_dec u t) as [U|U]; [ subst; rewrite Q in K'; discriminate | ]. rewrite P in Q; auto. rewrite C; auto.
  - intros u. destruct (Nat.eq_dec u t) as [U|U]; [ subst; intros o Q; rewrite Q in K'; discriminate | ].
    apply (wq_mono s); auto. intros c; rewrite C; auto.
Qed.

Lemma wp_once : forall s t o, WP s -> In t (cv s (cv_of o)) -> waits (pcs s t) = true.
Proof. intros s t o W I. destruct (wp_mem s W _ _ I) as (o' & [Q|Q] & _); rewrite Q; auto. Qed.

(** A waiter is woken. *)
Lemma WP_signal : forall s c w r, WP s -> Wt (mx s) -> Ctl true s -> cv s c = w :: r ->
  (exists t, alive (thr (mx s) t) = true /\ holds (thr (mx s) t) = true /\ t <> w) ->
  WP (set_mx (set_cv s c r) (wakeup (mx s) w true)).
Proof.
  intros s c w r W X C Q (t & At & Ht & Nt). pose proof W as [W1 W2 W3 W4 W5 W6].
  assert (I0 : In w (cv s c)) by (rewrite Q; left; auto).
  destruct (W3 c w I0) as (o & KO & RO).
  assert (Aw : alive (thr (mx s) w) = true).
  { destruct (alive (thr (mx s) w)) eqn:A; auto. rewrite (W1 w A) in KO. destruct KO; discriminate. }
  assert (Hw : holds (thr (mx s) w) = false).
  { destruct (holds (thr (mx s) w)) eqn:H; auto. destruct (w_own _ X) as (O & _). destruct (O t Ht), (O w H). congruence. }
  assert (Kw : pcs s w = Parked o).
  { destruct KO as [KO|KO]; auto. pose proof (C w Aw) as Cw. rewrite KO in Cw.
    destruct (critical_holds true _ _ Cw eq_refl). congruence. }
  set (s' := set_mx (set_cv s c r) (wakeup (mx s) w true)).
  assert (P : forall u, pcs s' u = pcs s u) by (intros u; unfold s'; rewrite pcs_mx, pcs_cv; auto).
  assert (M : forall u, mono (mx s) (mx s') u) by (intros u; apply mono_wakeup).
  assert (Cc : cv s' c = r) by (destruct c; reflexivity).
  assert (Co : forall c', c' <> c -> cv s' c' = cv s c') by (intros c' H; destruct c, c'; auto; congruence).
  assert (ND : NoDup (w :: r)) by (rewrite <- Q; auto).
  assert (In' : forall c' u, In u (cv s' c') -> In u (cv s c')).
  { intros c' u I. destruct c, c'; try (cbn in *; auto; fail); cbn in *; rewrite Q; right; auto. }
  assert (Cw2 : cv_of o = c) by auto.
  constructor.
  - intros u A. rewrite P. apply W1. destruct (M u) as (M1 & _). congruence.
  - intros u o'. rewrite P. auto.
  - intros c' u I. rewrite P. apply W3, In', I.
  - intros c'. assert (N2 : NoDup r) by (inversion ND; auto). specialize (W4 c'). destruct c, c'; cbn in *; auto.
  - intros u o' K. rewrite P in K. specialize (W5 u o' K).
    assert (u <> w) by (intros ->; congruence).
    destruct c, (cv_of o') eqn:Z; cbn in *; auto; rewrite Q in W5; destruct W5; auto; congruence.
  - intros u. destruct (Nat.eq_dec u w) as [U|U].
    + subst u. intros o' K _. rewrite P in K. pose proof (C w Aw) as Cw. rewrite Kw in Cw.
      assert (WK : woken (mx s) (mx s') w) by (apply wakeup_woken; auto). destruct WK as (WK1 & WK2).
      destruct (M w) as (_ & M2 & _ & _). rewrite M2. unfold ctl in Cw. rewrite Hw in Cw.
      destruct (at_ (thr (mx s) w)) as [| | | | | |[]|[]| |] eqn:B; auto; try discriminate.
      apply WK2; [ | rewrite ?B; discriminate ]. destruct (parked (thr (mx s) w)) eqn:PK; auto.
      pose proof (w_park _ X w PK) as Z. rewrite B in Z. contradiction.
    + apply (wq_mono s); auto. intros c' I. destruct c, c'; cbn in *; auto; rewrite Q in I; destruct I; auto; congruence.
Qed.

(** [t] registers. *)
Lemma WP_register : forall s t o, WP s -> alive (thr (mx s) t) = true -> waits (pcs s t) = false ->
  WP (set_pc (set_cv s (cv_of o) (cv s (cv_of o) ++ [t])) t (Reg o)).
Proof.
  intros s t o W A K. pose proof W as [W1 W2 W3 W4 W5 W6].
  set (s' := set_pc (set_cv s (cv_of o) (cv s (cv_of o) ++ [t])) t (Reg o)).
  assert (P : forall u, u <> t -> pcs s' u = pcs s u) by (intros u U; unfold s'; rewrite set_pc_other, pcs_cv; auto).
  assert (Pt : pcs s' t = Reg o) by (unfold s'; rewrite pcs_set, Nat.eqb_refl; auto).
  assert (Mx : mx s' = mx s) by (unfold s'; cbn [set_pc mx]; apply mx_cv).
  assert (NI : forall c, ~ In t (cv s c)).
  { intros c I. destruct (W3 c t I) as (o' & [Q|Q] & _); rewrite Q in K; discriminate. }
  assert (Cc : forall c, cv s' c = cv s c \/ c = cv_of o /\ cv s' c = cv s c ++ [t]).
  { intros c. unfold s'. destruct c, (cv_of o); cbn; auto. }
  assert (Sub : forall c u, In u (cv s c) -> In u (cv s' c)).
  { intros c u I. destruct (Cc c) as [->|(_ & ->)]; auto. apply in_or_app; auto. }
  constructor.
  - intros u Au. rewrite Mx in Au. destruct (Nat.eq_dec u t) as [U|U]; [ subst; congruence | rewrite P; auto ].
  - intros u o'. destruct (Nat.eq_dec u t) as [U|U]; [ subst; rewrite Pt; discriminate | rewrite P; auto ].
  - intros c u I. destruct (Nat.eq_dec u t) as [U|U].
    + subst. destruct (Cc c) as [Z|(Z & _)]; [ rewrite Z in I; destruct (NI c I) | exists o; auto ].
    + rewrite P; auto. apply W3. destruct (Cc c) as [Z|(_ & Z)]; rewrite Z in I; auto.
      apply in_app_or in I as [I|[I|[]]]; auto. congruence.
  - intros c. destruct (Cc c) as [->|(_ & ->)]; auto.
    rewrite <- (rev_involutive (cv s c ++ [t])). apply NoDup_rev. rewrite rev_app_distr. cbn. constructor.
    + intros I. apply in_rev in I. apply (NI c I).
    + apply NoDup_rev; auto.
  - intros u o' Q. destruct (Nat.eq_dec u t) as [U|U].
    + subst. rewrite Pt in Q. assert (o' = o) as -> by congruence. unfold s'. destruct (cv_of o); cbn; apply in_or_app; right; left; auto.
    + rewrite P in Q; auto.
  - intros u. destruct (Nat.eq_dec u t) as [U|U]; [ subst; intros o' Q; congruence | ].
    apply (wq_mono s); auto. rewrite Mx. apply mono_refl.
Qed.

(** [t] enters mutex.sleep. *)
Lemma WP_sleep : forall s t o m, WP s -> pcs s t = Reg o -> (forall u, u <> t -> mono (mx s) m u) ->
  alive (thr m t) = true -> WP (set_pc (set_mx s m) t (Parked o)).
Proof.
  intros s t o m W K M A. pose proof W as [W1 W2 W3 W4 W5 W6]. set (s' := set_pc (set_mx s m) t (Parked o)).
  assert (P : forall u, u <> t -> pcs s' u = pcs s u) by (intros u U; unfold s'; rewrite set_pc_other; auto).
  assert (Pt : pcs s' t = Parked o) by (unfold s'; rewrite pcs_set, Nat.eqb_refl; auto).
  assert (C : forall c, cv s' c = cv s c) by (intros []; reflexivity).
  constructor.
  - intros u Au. destruct (Nat.eq_dec u t) as [U|U]; [ subst; cbn in Au; congruence | rewrite P; auto ].
    apply W1. destruct (M u U) as (M1 & _). cbn in Au. congruence.
  - intros u o'. destruct (Nat.eq_dec u t) as [U|U]; [ subst; rewrite Pt; discriminate | rewrite P; auto ].
  - intros c u I. rewrite C in I. destruct (W3 c u I) as (o' & Q & R). destruct (Nat.eq_dec u t) as [U|U].
    + subst. exists o'. assert (o' = o) as -> by (destruct Q; congruence). rewrite Pt. auto.
    + exists o'. rewrite P; auto.
  - intros c. rewrite C. auto.
  - intros u o' Q. destruct (Nat.eq_dec u t) as [U|U]; [ subst; congruence | rewrite P in Q; auto ]. rewrite C; auto.
  - intros u. destruct (Nat.eq_dec u t) as [U|U].
    + subst. intros o' Q N. rewrite Pt in Q. assert (o' = o) as -> by congruence. destruct N. rewrite C. auto.
    + apply (wq_mono s); auto; try (apply M; auto; fail).
Qed.

(** [t] comes back from mutex.sleep. *)
Lemma WP_back : forall s t o, WP s -> pcs s t = Parked o -> alive (thr (mx s) t) = true ->
  WP (set_pc (unregister s (cv_of o) t) t (Body o)).
Proof.
  intros s t o W K A. pose proof W as [W1 W2 W3 W4 W5 W6]. set (s' := set_pc (unregister s (cv_of o) t) t (Body o)).
  assert (P : forall u, u <> t -> pcs s' u = pcs s u) by (intros u U; unfold s'; rewrite set_pc_other; auto; apply pcs_cv).
  assert (Pt : pcs s' t = Body o) by (unfold s'; rewrite pcs_set, Nat.eqb_refl; auto).
  assert (Mx : mx s' = mx s) by (unfold s'; cbn [set_pc mx]; unfold unregister; apply mx_cv).
  assert (Cc : forall c, cv s' c = cv s c \/ c = cv_of o /\ cv s' c = delete t (cv s c)).
  { intros c. unfold s', unregister. destruct c, (cv_of o); cbn; auto. }
  assert (In' : forall c u, In u (cv s' c) -> In u (cv s c)).
  { intros c u I. destruct (Cc c) as [Z|(_ & Z)]; rewrite Z in I; auto. apply in_delete in I; tauto. }
  assert (Kp : forall c u, u <> t -> In u (cv s c) -> In u (cv s' c)).
  { intros c u U I. destruct (Cc c) as [->|(_ & ->)]; auto. apply in_delete; auto. }
  constructor.
  - intros u Au. rewrite Mx in Au. destruct (Nat.eq_dec u t) as [U|U]; [ subst; congruence | rewrite P; auto ].
  - intros u o'. destruct (Nat.eq_dec u t) as [U|U]; [ subst; rewrite Pt; discriminate | rewrite P; auto ].
  - intros c u I. pose proof (In' c u I) as I0. destruct (W3 c u I0) as (o' & Q & R). destruct (Nat.eq_dec u t) as [U|U].
    + subst u. assert (o' = o) as -> by (destruct Q; congruence). subst c.
      destruct (Cc (cv_of o)) as [Z|(_ & Z)].
      * exfalso. unfold s', unregister in I. assert (X : cv (set_pc (set_cv s (cv_of o) (delete t (cv s (cv_of o)))) t (Body o)) (cv_of o) = delete t (cv s (cv_of o)))
          by (destruct (cv_of o); reflexivity). rewrite X in I. apply in_delete in I. tauto.
      * exfalso. rewrite Z in I. apply in_delete in I. tauto.
    + exists o'. rewrite P; auto.
  - intros c. destruct (Cc c) as [->|(_ & ->)]; auto. apply NoDup_filter. auto.
  - intros u o' Q. destruct (Nat.eq_dec u t) as [U|U]; [ subst; congruence | rewrite P in Q; auto ].
  - intros u. destruct (Nat.eq_dec u t) as [U|U]; [ subst; intros o' Q; congruence | ].
    apply (wq_mono s); auto. rewrite Mx. apply mono_refl.
Qed.

(** ** Counting those who will take care of the items, and of the room *)
Definition CNT (act : nat -> Prop) (n : nat) : Prop := exists l, NoDup l /\ Forall act l /\ n <= length l.
Lemma cnt_zero : forall act, CNT act 0.
Proof. intros act. exists []. repeat split; auto using NoDup_nil. Qed.
Lemma cnt_mono : forall (act act' : nat -> Prop) n n', (forall u, act u -> act' u) -> n' <= n -> CNT act n -> CNT act' n'.
Proof. intros act act' n n' H L (l & A & B & C). exists l. repeat split; auto; [ eapply Forall_impl; eauto | lia ]. Qed.
Lemma delete_length : forall t l, NoDup l -> length l <= S (length (delete t l)).
Proof.
  intros t l. induction l as [|a l IH]; intros N; cbn; [ lia | ]. inversion N as [|? ? N1 N2]; subst.
  destruct (Nat.eqb_spec a t) as [Q|Q]; cbn; [ subst | specialize (IH N2); unfold delete in IH; lia ].
  assert (X : filter (fun u => negb (Nat.eqb u t)) l = l).
  { clear - N1. induction l as [|b l IH]; cbn; auto. destruct (Nat.eqb_spec b t); [ subst; destruct N1; left; auto | ].
    cbn. rewrite IH; auto. intros I. apply N1; right; auto. }
  rewrite X. lia.
Qed.
Lemma cnt_drop : forall (act act' : nat -> Prop) n t, (forall u, u <> t -> act u -> act' u) -> CNT act (S n) -> CNT act' n.
Proof.
  intros act act' n t H (l & A & B & C). exists (delete t l). repeat split.
  - apply NoDup_filter; auto.
  - rewrite Forall_forall in *. intros u I. apply in_delete in I as (I & U). auto.
  - pose proof (delete_length t l A). lia.
Qed.
Lemma cnt_add : forall (act act' : nat -> Prop) n t, (forall u, act u -> act' u) -> ~ act t -> act' t -> CNT act n -> CNT act' (S n).
Proof.
  intros act act' n t H N T (l & A & B & C). exists (t :: l). repeat split.
  - constructor; auto. intros I. rewrite Forall_forall in B. apply N; auto.
  - constructor; auto. eapply Forall_impl; eauto.
  - cbn. lia.
Qed.
Lemma cnt_swap : forall (act act' : nat -> Prop) n t w, (forall u, u <> t -> act u -> act' u) -> ~ act w -> act' w ->
  CNT act n -> CNT act' n.
Proof.
  intros act act' n t w H N T X. apply (cnt_drop (fun u => act u \/ u = w) act' n t).
  - intros u U [Y|Y]; [ auto | subst; auto ].
  - apply (cnt_add act _ n w); auto.
Qed.

Definition pact (s : qstate) (u : nat) : Prop :=
  match pcs s u with
  | Body (Pop _) | Take | Sig => True
  | Parked (Pop _) => ~ In u (cvp s)
  | _ => False
  end.
Definition sact (s : qstate) (u : nat) : Prop :=
  match pcs s u with
  | Body (Push _ _) | PopSig _ => True
  | Parked (Push _ _) => ~ In u (cvs s)
  | _ => False
  end.
Lemma pact_same : forall s s' u, pcs s' u = pcs s u -> (In u (cvp s') -> In u (cvp s)) -> pact s u -> pact s' u.
Proof. intros s s' u P I A. unfold pact in *. rewrite P. destruct (pcs s u) as [|[]| | | | | |[]| | |]; auto. Qed.
Lemma sact_same : forall s s' u, pcs s' u = pcs s u -> (In u (cvs s') -> In u (cvs s)) -> sact s u -> sact s' u.
Proof. intros s s' u P I A. unfold sact in *. rewrite P. destruct (pcs s u) as [|[]| | | | | |[]| | |]; auto. Qed.

Record CP (s : qstate) : Prop := {
  cp_pop : cvp s = [] \/ CNT (pact s) (length (items s));
  cp_push : forall m, cap s = Some m -> closed s = false ->
    cvs s = [] \/ (exists c, pcs s c = Cast CPush) \/ CNT (sact s) (m - length (items s));
  cp_closed : closed s = true ->
    (cvp s = [] \/ exists c, pcs s c = Cast CPop) /\ (cvs s = [] \/ exists c v, pcs s c = Cast v);
  cp_none : cap s = None -> cvs s = []
}.

Lemma CP_mono : forall s s', CP s -> items s' = items s -> closed s' = closed s -> cap s' = cap s ->
  (cvp s = [] -> cvp s' = []) -> (cvs s = [] -> cvs s' = []) ->
  (forall u, pact s u -> pact s' u) -> (forall u, sact s u -> sact s' u) ->
  (forall u v, pcs s u = Cast v -> pcs s' u = Cast v) -> CP s'.
Proof.
  intros s s' [P1 P2 P3 P4] I C M V1 V2 A1 A2 K. constructor.
  - rewrite I. destruct P1 as [P1|P1]; auto. right. eapply cnt_mono; eauto.
  - intros m Q R. rewrite I. rewrite M in Q. rewrite C in R. destruct (P2 m Q R) as [X|[(c & X)|X]]; eauto.
    right; right. eapply cnt_mono; eauto.
  - rewrite C. intros R. destruct (P3 R) as ([X1|(c1 & X1)] & [X2|(c2 & v2 & X2)]); split; eauto.
  - rewrite M. auto.
Qed.

Lemma finish_view : forall s t r, alive (thr (mx s) t) = true -> at_ (thr (mx s) t) = Out ->
  let s' := finish s t r in
  items s' = items s /\ closed s' = closed s /\ cap s' = cap s /\ cvp s' = cvp s /\ cvs s' = cvs s /\ pcs s' t = Fin r /\
  (forall u, u <> t -> pcs s' u = pcs s u) /\ (forall u, u <> t -> mono (mx s) (mx s') u) /\ alive (thr (mx s') t) = true.
Proof.
  intros s t r A P. cbv zeta. rewrite finish_eq; auto. cbn [set_pc set_mx items closed cap cvp cvs mx].
  repeat split; auto.
  - rewrite pcs_set, Nat.eqb_refl; auto.
  - intros u U. rewrite set_pc_other; auto.
  - apply mono_set; auto.
  - apply mono_set; auto.
  - apply mono_set; auto.
  - apply mono_set; auto.
  - rewrite thr_set, Nat.eqb_refl; auto.
Qed.
Lemma WP_finish : forall s t r, WP s -> alive (thr (mx s) t) = true -> at_ (thr (mx s) t) = Out -> waits (pcs s t) = false ->
  WP (finish s t r).
Proof.
  intros s t r W A P K. destruct (finish_view s t r A P) as (_ & _ & _ & V4 & V5 & V6 & V7 & V8 & V9).
  apply (WP_move s _ t); auto; [ rewrite V6; auto | congruence ].
Qed.
Lemma WP_data : forall s s', WP s -> mx s' = mx s -> pcs s' = pcs s -> cvp s' = cvp s -> cvs s' = cvs s -> WP s'.
Proof.
  intros s s' [W1 W2 W3 W4 W5 W6] M P C1 C2. assert (C : forall c, cv s' c = cv s c) by (intros []; auto).
  constructor; intros *; rewrite ?M, ?P, ?C; auto. intros o Q. rewrite P, C, M in *. apply W6; auto.
Qed.
Lemma WP_pc : forall s t p, WP s -> alive (thr (mx s) t) = true -> waits (pcs s t) = false -> waits p = false ->
  WP (set_pc s t p).
Proof.
  intros s t p W A K K'. apply (WP_move s _ t); auto.
  - intros; apply mono_refl.
  - intros u U. apply set_pc_other; auto.
  - rewrite pcs_set, Nat.eqb_refl; auto.
  - cbn [set_pc mx]. congruence.
Qed.

(** What signal does. *)
Lemma signal_view : forall s c t, WP s -> Wt (mx s) -> Ctl true s -> Dt s -> alive (thr (mx s) t) = true -> holds (thr (mx s) t) = true ->
  waits (pcs s t) = false ->
  (cv s c = [] /\ signal s c = (s, false)) \/
  exists s1 w r o, signal s c = (s1, false) /\ cv s c = w :: r /\ w <> t /\ WP s1 /\ pcs s1 = pcs s /\
    (alive (thr (mx s1) t) = alive (thr (mx s) t)) /\ at_ (thr (mx s1) t) = at_ (thr (mx s) t) /\
    items s1 = items s /\ closed s1 = closed s /\ cap s1 = cap s /\ cv s1 c = r /\ (forall c', c' <> c -> cv s1 c' = cv s c') /\
    pcs s w = Parked o /\ cv_of o = c /\ ~ In w r /\ match o with Push _ _ => c = CPush | Pop _ => c = CPop | _ => False end.
Proof.
  intros s c t W X C D At Ht Kt. destruct (cv s c) as [|w r] eqn:Q; [ left; unfold signal; rewrite Q; auto | right ].
  assert (I0 : In w (cv s c)) by (rewrite Q; left; auto).
  destruct (wp_mem s W c w I0) as (o & KO & RO).
  assert (Nw : w <> t) by (intros ->; destruct KO as [KO|KO]; rewrite KO in Kt; discriminate).
  assert (Aw : alive (thr (mx s) w) = true).
  { destruct (alive (thr (mx s) w)) eqn:A; auto. rewrite (wp_dead s W w A) in KO. destruct KO; discriminate. }
  assert (Kw : pcs s w = Parked o).
  { destruct KO as [KO|KO]; auto. pose proof (C w Aw) as Cw. rewrite KO in Cw.
    destruct (critical_holds true _ _ Cw eq_refl) as (_ & Hw). destruct (w_own _ X) as (O & _). destruct (O t Ht), (O w Hw). congruence. }
  exists (set_mx (set_cv s c r) (wakeup (mx s) w true)), w, r, o.
  unfold signal. rewrite Q, mx_cv, Aw. pose proof (D w Aw) as Dw. rewrite Kw in Dw.
  assert (ND : NoDup (w :: r)) by (rewrite <- Q; apply (wp_nodup s W)). inversion ND.
  split; [ auto | ]. split; [ auto | ]. split; [ auto | ].
  split; [ apply WP_signal; eauto | ].
  split; [ destruct c; reflexivity | ].
  destruct (mono_wakeup (mx s) w true t) as (M1 & M2 & _).
  split; [ exact M1 | ]. split; [ exact M2 | ].
  split; [ destruct c; reflexivity | ]. split; [ destruct c; reflexivity | ]. split; [ destruct c; reflexivity | ].
  split; [ destruct c; reflexivity | ]. split; [ intros c' N; destruct c, c'; auto; congruence | ].
  split; [ auto | ]. split; [ auto | ]. split; [ auto | ]. destruct o; auto.
Qed.

Ltac other_pcs := intros u U; rewrite ?set_pc_other by auto; rewrite ?pcs_cv; auto.

Lemma calm_turn : forall s t timed s', WP s -> CP s -> Wt (mx s) -> Ctl true s -> Dt s ->
  alive (thr (mx s) t) = true -> at_ (thr (mx s) t) = Out -> turn s t timed = Some s' -> WP s' /\ CP s'.
Proof.
  intros s t timed s' W C X Ct D A P E.
  pose proof (Ct t A) as Cx. pose proof (D t A) as Dx.
  assert (H : pcs s t <> QOut -> (forall r, pcs s t <> Fin r) -> holds (thr (mx s) t) = true)
    by (intros; eapply out_holds; eauto).
  pose proof C as [P1 P2 P3 P4].
  (* finishing from a place where [t] takes care of nothing, or of things that no longer matter *)
  assert (FV : forall r, waits (pcs s t) = false -> WP (finish s t r)) by (intros; apply WP_finish; auto).
  assert (Fp : forall s1 r u, pcs s1 = pcs s -> mx s1 = mx s -> cvp s1 = cvp s -> pcs s t <> Sig -> ~ pact s t ->
             pact s u -> pact (finish s1 t r) u).
  { intros s1 r u E1 E2 E3 N1 N2 Y. destruct (Nat.eq_dec u t) as [U|U]; [ subst; contradiction | ].
    destruct (finish_view s1 t r) as (_ & _ & _ & V4 & _ & _ & V7 & _); [ congruence .. | ].
    apply (pact_same s); auto; [ rewrite V7, E1; auto | rewrite V4, E3; auto ]. }
  assert (Fs : forall s1 r u, pcs s1 = pcs s -> mx s1 = mx s -> cvs s1 = cvs s -> ~ sact s t ->
             sact s u -> sact (finish s1 t r) u).
  { intros s1 r u E1 E2 E3 N2 Y. destruct (Nat.eq_dec u t) as [U|U]; [ subst; contradiction | ].
    destruct (finish_view s1 t r) as (_ & _ & _ & _ & V5 & _ & V7 & _); [ congruence .. | ].
    apply (sact_same s); auto; [ rewrite V7, E1; auto | rewrite V5, E3; auto ]. }
  assert (Fc : forall s1 r u v, pcs s1 = pcs s -> mx s1 = mx s -> (forall v', pcs s t <> Cast v') -> pcs s u = Cast v ->
             pcs (finish s1 t r) u = Cast v).
  { intros s1 r u v E1 E2 N Y. destruct (Nat.eq_dec u t) as [U|U]; [ subst; destruct (N v); auto | ].
    rewrite finish_pcs; auto. congruence. }
  (* the generic case: everything goes on as before *)
  assert (FIN : forall r, waits (pcs s t) = false -> ~ pact s t -> ~ sact s t -> pcs s t <> Sig -> (forall v, pcs s t <> Cast v) ->
             WP (finish s t r) /\ CP (finish s t r)).
  { intros r K1 K2 K3 K4 K5. split; auto.
    destruct (finish_view s t r A P) as (V1 & V2 & V3 & V4 & V5 & _).
    apply (CP_mono s); auto; try (rewrite ?V4, ?V5; auto). }
  unfold turn in E. destruct (pcs s t) as [|o| | |r|o|o|o|o|v|r] eqn:K; try discriminate;
    try (assert (H' : holds (thr (mx s) t) = true) by (apply H; [ discriminate | intros; discriminate ])).
  - destruct o as [x nb|nb| | |m].
    + (* push *)
      assert (Np : ~ pact s t) by (unfold pact; rewrite K; auto).
      assert (NP : forall p, ~ pact s t -> (forall u, pact s u -> pact (set_pc s t p) u)).
      { intros p N u Y. apply (pact_same s); auto. apply set_pc_other. intros ->. auto. }
      destruct (closed s) eqn:Q1.
      { inv_some E s'. split; auto. destruct (finish_view s t RErr A P) as (V1 & V2 & V3 & V4 & V5 & V6 & V7 & _). constructor.
        - rewrite V4, V1. destruct P1; auto. right. eapply cnt_mono; [ | | eauto ]; auto. intros; apply Fp; auto; congruence.
        - intros m _ Q. rewrite V2 in Q. congruence.
        - intros _. rewrite V4, V5. destruct (P3 eq_refl) as ([Y1|(c1 & Y1)] & [Y2|(c2 & v2 & Y2)]); split; auto;
            right; [ exists c2, v2 | exists c1 | exists c1 | exists c2, v2 ]; (apply Fc; auto; congruence).
        - rewrite V3, V5. auto. }
      destruct (full s) eqn:Q2.
      { assert (Z : forall m, cap s = Some m -> m - length (items s) = 0).
        { intros m Q. unfold full in Q2. rewrite Q in Q2. destruct (Nat.ltb_spec (length (items s)) m); [ discriminate | lia ]. }
        assert (FF : forall r, WP (finish s t r) /\ CP (finish s t r)).
        { intros r. split; auto. destruct (finish_view s t r A P) as (V1 & V2 & V3 & V4 & V5 & V6 & V7 & _). constructor.
          - rewrite V4, V1. destruct P1; auto. right. eapply cnt_mono; [ | | eauto ]; auto. intros; apply Fp; auto; congruence.
          - intros m Q _. rewrite V3 in Q. rewrite V1, (Z m Q). right; right. apply cnt_zero.
          - intros Q. rewrite V2 in Q. congruence.
          - rewrite V3, V5. auto. }
        destruct nb; [ | destruct timed ]; inv_some E s'; auto. split; [ apply WP_pc; auto; rewrite K; auto | ]. constructor.
        - cbn [set_pc cvp items]. destruct P1; auto. right. eapply cnt_mono; [ | | eauto ]; auto.
        - intros m Q _. cbn [set_pc items cap] in *. rewrite (Z m Q). right; right. apply cnt_zero.
        - cbn [set_pc closed]. congruence.
        - auto. }
      inv_some E s'. split.
      { apply WP_pc; auto; try (cbn [set_items pcs]; rewrite K; auto). apply (WP_data s); auto. }
      set (s1 := set_items s (items s ++ [x]) (pushed s ++ [x]) (gone s)).
      assert (Lx : length (items s ++ [x]) = S (length (items s))) by (rewrite app_length; cbn; lia). constructor.
      * cbn [set_pc s1 set_items cvp items]. rewrite Lx. destruct P1 as [P1|P1]; auto. right.
        apply (cnt_add (pact s) _ _ t); auto.
        -- intros u Y. apply (pact_same s); auto. apply (set_pc_other s1). intros ->; auto.
        -- unfold pact. rewrite pcs_set, Nat.eqb_refl. exact I.
      * intros m Q R. cbn [set_pc s1 set_items cap closed items cvs] in *. rewrite Lx.
        destruct (P2 m Q eq_refl) as [Y|[(c & Y)|Y]]; auto.
        -- right; left. exists c. rewrite set_pc_other; auto. intros ->. congruence.
        -- right; right. unfold full in Q2. rewrite Q in Q2. apply negb_false_iff, Nat.ltb_lt in Q2.
           replace (m - length (items s)) with (S (m - S (length (items s)))) in Y by lia.
           apply (cnt_drop (sact s) _ _ t); [ | exact Y ]. intros u U. apply sact_same; auto. apply (set_pc_other s1); auto.
      * cbn [set_pc s1 set_items closed]. congruence.
      * exact P4.
    + (* pop *)
      assert (Ns : ~ sact s t) by (unfold sact; rewrite K; auto).
      assert (NS : forall p u, sact s u -> sact (set_pc s t p) u).
      { intros p u Y. apply (sact_same s); auto. apply set_pc_other. intros ->. auto. }
      destruct (items s) as [|x l] eqn:Q1.
      { assert (FF : forall r, WP (finish s t r) /\ CP (finish s t r)).
        { intros r. split; auto. destruct (finish_view s t r A P) as (V1 & V2 & V3 & V4 & V5 & V6 & V7 & _). constructor.
          - rewrite V1, Q1. right. apply cnt_zero.
          - intros m Q R. rewrite V1, V5. rewrite V3 in Q. rewrite V2 in R. destruct (P2 m Q R) as [Y|[(c & Y)|Y]]; auto.
            + right; left. exists c. apply Fc; auto. congruence.
            + right; right. rewrite Q1. eapply cnt_mono; [ | | exact Y ]; auto.
          - intros R. rewrite V2 in R. rewrite V4, V5. destruct (P3 R) as ([Y1|(c1 & Y1)] & [Y2|(c2 & v2 & Y2)]); split; auto;
            right; [ exists c2, v2 | exists c1 | exists c1 | exists c2, v2 ]; (apply Fc; auto; congruence).
          - rewrite V3, V5. auto. }
        destruct nb; [ | destruct (closed s) eqn:Q2; [ | destruct timed ] ]; inv_some E s'; auto.
        split; [ apply WP_pc; auto; rewrite K; auto | ]. constructor.
        - cbn [set_pc items]. rewrite Q1. right. apply cnt_zero.
        - intros m Q R. cbn [set_pc items cap closed cvs] in *. rewrite Q1. destruct (P2 m Q eq_refl) as [Y|[(c & Y)|Y]]; auto.
          + right; left. exists c. rewrite set_pc_other; auto. intros ->. congruence.
          + right; right. eapply cnt_mono; [ | | exact Y ]; auto.
        - cbn [set_pc closed]. congruence.
        - auto. }
      inv_some E s'. split; [ apply WP_pc; auto; rewrite K; auto | ]. rewrite <- Q1 in *. apply (CP_mono s); auto.
      * intros u Y. destruct (Nat.eq_dec u t) as [U|U].
        -- subst. unfold pact. rewrite pcs_set, Nat.eqb_refl. exact I.
        -- apply (pact_same s); auto. apply set_pc_other; auto.
      * intros u v Y. rewrite set_pc_other; auto. intros ->. congruence.
    + (* close *)
      assert (Np : ~ pact s t) by (unfold pact; rewrite K; auto). assert (Ns : ~ sact s t) by (unfold sact; rewrite K; auto).
      destruct (closed s) eqn:Q1; inv_some E s'; [ apply FIN; auto; congruence | ].
      split; [ apply WP_pc; auto; try (cbn [set_closed pcs]; rewrite K; auto); apply (WP_data s); auto | ]. constructor.
      * cbn [set_pc set_closed cvp items]. destruct P1; auto. right. eapply cnt_mono; [ | | eauto ]; auto.
        intros u Y. apply (pact_same s); auto. apply (set_pc_other (set_closed s)). intros ->; auto.
      * cbn [set_pc set_closed closed]. congruence.
      * intros _. split; right; [ exists t | exists t, CPop ]; rewrite pcs_set, Nat.eqb_refl; auto.
      * exact P4.
    + (* clear *)
      set (s1 := set_items s [] (pushed s) (gone s ++ map (fun x => (x, None)) (items s))) in *.
      destruct (cap s) eqn:Q1; inv_some E s'.
      * split; [ apply WP_pc; auto; try (cbn [s1 set_items pcs]; rewrite K; auto); apply (WP_data s); auto | ]. constructor.
        -- right. cbn [set_pc s1 set_items items length]. apply cnt_zero.
        -- intros m _ _. right; left. exists t. rewrite pcs_set, Nat.eqb_refl; auto.
        -- intros R. destruct (P3 R) as ([Y1|(c1 & Y1)] & _); split; auto.
           ++ right. exists t, CPush. rewrite pcs_set, Nat.eqb_refl; auto.
           ++ right. exists c1. rewrite set_pc_other; auto. intros ->; congruence.
           ++ right. exists t, CPush. rewrite pcs_set, Nat.eqb_refl; auto.
        -- cbn [set_pc s1 set_items cap]. congruence.
      * assert (Z : WP s1) by (apply (WP_data s); auto).
        split; [ apply WP_finish; auto; cbn [s1 set_items pcs]; rewrite K; auto | ].
        destruct (finish_view s1 t ROk A P) as (V1 & V2 & V3 & V4 & V5 & V6 & V7 & _). constructor.
        -- right. rewrite V1. apply cnt_zero.
        -- intros m Q. rewrite V3 in Q. cbn [s1 set_items cap] in Q. congruence.
        -- intros R. rewrite V2 in R. rewrite V4, V5. destruct (P3 R) as ([Y1|(c1 & Y1)] & _); split; auto; try (left; apply P4; auto).
           right. exists c1. apply Fc; auto. congruence.
        -- intros _. rewrite V5. auto.
    + (* max= *)
      assert (Np : ~ pact s t) by (unfold pact; rewrite K; auto). assert (Ns : ~ sact s t) by (unfold sact; rewrite K; auto).
      destruct (cap s) as [m0|] eqn:Q1; [ | inv_some E s'; apply FIN; auto; congruence ].
      destruct (Nat.ltb_spec m0 m) as [L|L]; inv_some E s'.
      * split; [ apply WP_pc; auto; try (cbn [set_cap pcs]; rewrite K; auto); apply (WP_data s); auto | ]. constructor.
        -- cbn [set_pc set_cap cvp items]. destruct P1; auto. right. eapply cnt_mono; [ | | eauto ]; auto.
           intros u Y. apply (pact_same s); auto. apply (set_pc_other (set_cap s m)). intros ->; auto.
        -- intros m1 _ _. right; left. exists t. rewrite pcs_set, Nat.eqb_refl; auto.
        -- intros R. destruct (P3 R) as ([Y1|(c1 & Y1)] & _); split; auto.
           ++ right. exists t, CPush. rewrite pcs_set, Nat.eqb_refl; auto.
           ++ right. exists c1. rewrite set_pc_other; auto. intros ->; congruence.
           ++ right. exists t, CPush. rewrite pcs_set, Nat.eqb_refl; auto.
        -- cbn [set_pc set_cap cap]. congruence.
      * assert (Z : WP (set_cap s m)) by (apply (WP_data s); auto).
        split; [ apply WP_finish; auto; cbn [set_cap pcs]; rewrite K; auto | ].
        destruct (finish_view (set_cap s m) t ROk A P) as (V1 & V2 & V3 & V4 & V5 & V6 & V7 & _). constructor.
        -- rewrite V4, V1. destruct P1; auto. right. eapply cnt_mono; [ | | eauto ]; auto. intros; apply Fp; auto; congruence.
        -- intros m1 Q R. rewrite V3 in Q. rewrite V2 in R. rewrite V1, V5. cbn [set_cap cap closed items cvs] in *.
           assert (m1 = m) as -> by congruence. destruct (P2 m0 eq_refl R) as [Y|[(c & Y)|Y]]; auto.
           ++ right; left. exists c. apply Fc; auto. congruence.
           ++ right; right. eapply cnt_mono; [ | | exact Y ]; [ intros; apply Fs; auto | lia ].
        -- intros R. rewrite V2 in R. rewrite V4, V5. destruct (P3 R) as ([Y1|(c1 & Y1)] & [Y2|(c2 & v2 & Y2)]); split; auto;
            right; [ exists c2, v2 | exists c1 | exists c1 | exists c2, v2 ]; (apply Fc; auto; congruence).
        -- intros Q. rewrite V3 in Q. cbn in Q. congruence.
  - (* signal after a push *)
    assert (Kt : waits (pcs s t) = false) by (rewrite K; auto).
    assert (Ns : ~ sact s t) by (unfold sact; rewrite K; auto).
    destruct (signal_view s CPop t W X Ct D A H' Kt) as [(Q & S)|(s1 & w & r & o & S & Q & Nw & W1 & Ep & Ea & Et & Ei & Ec & Em & E1 & E2 & Kw & Ro & Nr & Oo)];
      rewrite S in E; inv_some E s'.
    + split; auto. destruct (finish_view s t ROk A P) as (V1 & V2 & V3 & V4 & V5 & V6 & V7 & _). constructor.
      * left. rewrite V4. exact Q.
      * intros m Q1 R. rewrite V1, V5. rewrite V3 in Q1. rewrite V2 in R. destruct (P2 m Q1 R) as [Y|[(c & Y)|Y]]; auto.
        -- right; left. exists c. apply Fc; auto. congruence.
        -- right; right. eapply cnt_mono; [ | | exact Y ]; auto.
      * intros R. rewrite V2 in R. rewrite V4, V5. destruct (P3 R) as (_ & [Y2|(c2 & v2 & Y2)]); split; auto.
        right. exists c2, v2. apply Fc; auto; congruence.
      * rewrite V3, V5. auto.
    + assert (A1 : alive (thr (mx s1) t) = true) by congruence. assert (B1 : at_ (thr (mx s1) t) = Out) by congruence.
      split; [ apply WP_finish; auto; rewrite Ep; auto | ].
      assert (Es : cvs s1 = cvs s) by (apply (E2 CPush); discriminate).
      destruct (finish_view s1 t ROk A1 B1) as (V1 & V2 & V3 & V4 & V5 & V6 & V7 & _).
      cbn [cv] in *. assert (Pw : forall u, u <> t -> pcs (finish s1 t ROk) u = pcs s u) by (intros u U; rewrite V7, Ep; auto).
      assert (Cs : forall u v, pcs s u = Cast v -> pcs (finish s1 t ROk) u = Cast v) by (intros u v Y; rewrite Pw; auto; intros ->; congruence).
      assert (Ss : forall u, sact s u -> sact (finish s1 t ROk) u).
      { intros u Y. apply (sact_same s); auto; [ apply Pw; intros ->; auto | rewrite V5, Es; auto ]. }
      constructor.
      * right. rewrite V1, Ei. destruct P1 as [P1|P1]; [ congruence | ].
        apply (cnt_swap (pact s) _ _ t w); auto.
        -- intros u U Y. apply (pact_same s); auto. rewrite V4, E1, Q. right; auto.
        -- unfold pact. rewrite Kw. destruct o; try tauto. rewrite Q. intros Z. apply Z. left; auto.
        -- unfold pact. rewrite Pw, Kw; auto. destruct o; try (destruct Oo; fail); try discriminate. rewrite V4, E1. auto.
      * intros m Q1 R. rewrite V1, V5, Ei, Es. rewrite V3, Em in Q1. rewrite V2, Ec in R.
        destruct (P2 m Q1 R) as [Y|[(c & Y)|Y]]; eauto. right; right. eapply cnt_mono; [ | | exact Y ]; auto.
      * intros R. rewrite V2, Ec in R. rewrite V4, V5, E1, Es. destruct (P3 R) as ([Y1|(c1 & Y1)] & [Y2|(c2 & v2 & Y2)]); try congruence; split; eauto.
      * rewrite V3, V5, Em, Es. auto.
  - (* taking an item *)
    cbn in Dx. destruct (items s) as [|x l] eqn:Q1; [ congruence | ].
    set (s1 := set_items s l (pushed s) (gone s ++ [(x, Some t)])) in *.
    assert (Z : WP s1) by (apply (WP_data s); auto).
    assert (Ns : ~ sact s t) by (unfold sact; rewrite K; auto).
    destruct (cap s) as [m|] eqn:Q2; inv_some E s'.
    + split; [ apply WP_pc; auto; cbn [s1 set_items pcs]; rewrite K; auto | ].
      assert (Pw : forall u, u <> t -> pcs (set_pc s1 t (PopSig (RItem x))) u = pcs s u) by (intros u U; rewrite set_pc_other; auto).
      constructor.
      * cbn [set_pc s1 set_items cvp items]. destruct P1 as [P1|P1]; auto. right. cbn [length] in P1.
        apply (cnt_drop (pact s) _ _ t); auto. intros u U. apply pact_same; auto.
      * intros m' Q R. cbn [set_pc s1 set_items cap closed cvs items] in *. assert (m' = m) as -> by congruence.
        destruct (P2 m eq_refl R) as [Y|[(c & Y)|Y]]; auto.
        -- right; left. exists c. rewrite Pw; auto. intros ->; congruence.
        -- right; right. cbn [length] in Y. apply (cnt_mono (sact (set_pc s1 t (PopSig (RItem x)))) _ (S (m - S (length l)))); auto; [ lia | ].
           apply (cnt_add (sact s) _ _ t); auto.
           ++ intros u Y1. apply (sact_same s); auto. apply Pw. intros ->; auto.
           ++ unfold sact. rewrite pcs_set, Nat.eqb_refl. exact I.
      * intros R. cbn [set_pc s1 set_items closed cvp cvs] in *. destruct (P3 R) as ([Y1|(c1 & Y1)] & [Y2|(c2 & v2 & Y2)]); split; auto;
          right; [ exists c2, v2 | exists c1 | exists c1 | exists c2, v2 ]; (rewrite Pw; auto; intros ->; congruence).
      * cbn [set_pc s1 set_items cap]. congruence.
    + split; [ apply WP_finish; auto; cbn [s1 set_items pcs]; rewrite K; auto | ].
      destruct (finish_view s1 t (RItem x) A P) as (V1 & V2 & V3 & V4 & V5 & V6 & V7 & _). constructor.
      * rewrite V4, V1. cbn [s1 set_items cvp items]. destruct P1 as [P1|P1]; auto. right. cbn [length] in P1.
        apply (cnt_drop (pact s) _ _ t); auto. intros u U. apply pact_same; auto. rewrite V7; auto. rewrite V4. auto.
      * intros m Q. rewrite V3 in Q. cbn [s1 set_items cap] in Q. congruence.
      * intros R. rewrite V2 in R. rewrite V4, V5. destruct (P3 R) as ([Y1|(c1 & Y1)] & _); split; auto; try (left; apply P4; auto).
        right. exists c1. apply Fc; auto. congruence.
      * intros _. rewrite V5. auto.
  - (* signal after a pop *)
    assert (Kt : waits (pcs s t) = false) by (rewrite K; auto).
    assert (Np : ~ pact s t) by (unfold pact; rewrite K; auto).
    destruct (signal_view s CPush t W X Ct D A H' Kt) as [(Q & S)|(s1 & w & r' & o & S & Q & Nw & W1 & Ep & Ea & Et & Ei & Ec & Em & E1 & E2 & Kw & Ro & Nr & Oo)];
      rewrite S in E; inv_some E s'.
    + split; auto. destruct (finish_view s t r A P) as (V1 & V2 & V3 & V4 & V5 & V6 & V7 & _). constructor.
      * rewrite V4, V1. destruct P1; auto. right. eapply cnt_mono; [ | | eauto ]; auto. intros; apply Fp; auto; congruence.
      * left. rewrite V5. exact Q.
      * intros R. rewrite V2 in R. rewrite V4, V5. destruct (P3 R) as ([Y1|(c1 & Y1)] & _); split; auto.
        right. exists c1. apply Fc; auto; congruence.
      * rewrite V3, V5. auto.
    + assert (A1 : alive (thr (mx s1) t) = true) by congruence. assert (B1 : at_ (thr (mx s1) t) = Out) by congruence.
      split; [ apply WP_finish; auto; rewrite Ep; auto | ].
      assert (Es : cvp s1 = cvp s) by (apply (E2 CPop); discriminate).
      destruct (finish_view s1 t r A1 B1) as (V1 & V2 & V3 & V4 & V5 & V6 & V7 & _).
      cbn [cv] in *. assert (Pw : forall u, u <> t -> pcs (finish s1 t r) u = pcs s u) by (intros u U; rewrite V7, Ep; auto).
      assert (Cs : forall u v, pcs s u = Cast v -> pcs (finish s1 t r) u = Cast v) by (intros u v Y; rewrite Pw; auto; intros ->; congruence).
      constructor.
      * rewrite V4, V1, Ei, Es. destruct P1 as [P1|P1]; auto. right. eapply cnt_mono; [ | | exact P1 ]; auto.
        intros u Y. apply (pact_same s); auto; [ apply Pw; intros ->; auto | rewrite V4, Es; auto ].
      * intros m Q1 R. rewrite V1, V5, Ei, E1. rewrite V3, Em in Q1. rewrite V2, Ec in R.
        destruct (P2 m Q1 R) as [Y|[(c & Y)|Y]]; [ congruence | eauto | ]. right; right.
        apply (cnt_swap (sact s) _ _ t w); auto.
        -- intros u U Z. apply (sact_same s); auto. rewrite V5, E1, Q. right; auto.
        -- unfold sact. rewrite Kw. destruct o; try tauto. rewrite Q. intros Z. apply Z. left; auto.
        -- unfold sact. rewrite Pw, Kw; auto. destruct o; try (destruct Oo; fail); try discriminate. rewrite V5, E1. auto.
      * intros R. rewrite V2, Ec in R. rewrite V4, V5, E1, Es. destruct (P3 R) as ([Y1|(c1 & Y1)] & [Y2|(c2 & v2 & Y2)]); try congruence; split; eauto.
      * rewrite V3, V5, Em, E1. intros Z. rewrite (P4 Z) in Q. discriminate.
  - (* register *)
    inv_some E s'. split; [ apply WP_register; auto; rewrite K; auto | ].
    set (s' := set_pc (set_cv s (cv_of o) (cv s (cv_of o) ++ [t])) t (Reg o)).
    assert (Pw : forall u, u <> t -> pcs s' u = pcs s u) by (intros u U; unfold s'; rewrite set_pc_other, pcs_cv; auto).
    assert (Cs : forall u v, pcs s u = Cast v -> pcs s' u = Cast v) by (intros u v Y; rewrite Pw; auto; intros ->; congruence).
    assert (Np : ~ pact s t) by (unfold pact; rewrite K; auto). assert (Ns : ~ sact s t) by (unfold sact; rewrite K; auto).
    assert (Ap : forall u, pact s u -> pact s' u).
    { intros u Y. assert (u <> t) by (intros ->; auto). apply (pact_same s); auto. unfold s'. destruct (cv_of o); cbn; auto.
      intros Z. apply in_app_or in Z as [Z|[Z|[]]]; auto. congruence. }
    assert (As : forall u, sact s u -> sact s' u).
    { intros u Y. assert (u <> t) by (intros ->; auto). apply (sact_same s); auto. unfold s'. destruct (cv_of o); cbn; auto.
      intros Z. apply in_app_or in Z as [Z|[Z|[]]]; auto. congruence. }
    assert (Hi : items s' = items s /\ closed s' = closed s /\ cap s' = cap s) by (unfold s'; destruct (cv_of o); auto).
    destruct Hi as (Hi & Hc & Hm). destruct o as [x nb|nb| | |m]; cbn in Dx; try contradiction; destruct Dx as (D1 & D2).
    + assert (Hp : cvp s' = cvp s) by reflexivity. constructor.
      * rewrite Hp, Hi. destruct P1 as [P1|P1]; auto. right. eapply cnt_mono; [ | | exact P1 ]; auto.
      * intros m Q _. rewrite Hm in Q. rewrite Hi. right; right. unfold full in D1. rewrite Q in D1.
        destruct (Nat.ltb_spec (length (items s)) m); [ discriminate | ]. replace (m - length (items s)) with 0 by lia. apply cnt_zero.
      * rewrite Hc. congruence.
      * rewrite Hm. unfold full in D1. destruct (cap s); discriminate.
    + assert (Hp : cvs s' = cvs s) by reflexivity. constructor.
      * right. rewrite Hi, D1. apply cnt_zero.
      * intros m Q R. rewrite Hi, Hp. rewrite Hm in Q. destruct (P2 m Q D2) as [Y|[(c & Y)|Y]]; eauto.
        right; right. eapply cnt_mono; [ | | exact Y ]; auto.
      * rewrite Hc. congruence.
      * rewrite Hm, Hp. auto.
  - (* go to sleep *)
    cbn [step] in E. rewrite A, P in E. cbn [is_out andb] in E.
    destruct (w_own _ X) as (O1 & O2). destruct (O1 t H') as (N & _). rewrite N, Nat.eqb_refl in E. rewrite thr_set, Nat.eqb_refl in E.
    cbn [goto at_ is_out] in E. inv_some E s'.
    assert (Np : ~ pact s t) by (unfold pact; rewrite K; auto). assert (Ns : ~ sact s t) by (unfold sact; rewrite K; auto).
    split; [ apply WP_sleep; auto | ].
    + intros u U. apply mono_set; auto.
    + rewrite thr_set, Nat.eqb_refl. auto.
    + apply (CP_mono s); auto.
      * intros u Y. apply (pact_same s); auto. rewrite set_pc_other; auto. intros ->; auto.
      * intros u Y. apply (sact_same s); auto. rewrite set_pc_other; auto. intros ->; auto.
      * intros u v Y. rewrite set_pc_other; auto. intros ->; congruence.
  - (* back from sleep *)
    inv_some E s'. split; [ apply WP_back; auto | ]. set (s' := set_pc (unregister s (cv_of o) t) t (Body o)).
    assert (Pw : forall u, u <> t -> pcs s' u = pcs s u) by (intros u U; unfold s', unregister; rewrite set_pc_other, pcs_cv; auto).
    assert (Hi : items s' = items s /\ closed s' = closed s /\ cap s' = cap s) by (unfold s', unregister; destruct (cv_of o); auto).
    assert (Sp : forall u, In u (cvp s') -> In u (cvp s)).
    { unfold s', unregister. destruct (cv_of o); cbn; auto. intros u Y. apply in_delete in Y; tauto. }
    assert (Ss : forall u, In u (cvs s') -> In u (cvs s)).
    { unfold s', unregister. destruct (cv_of o); cbn; auto. intros u Y. apply in_delete in Y; tauto. }
    destruct Hi as (Hi & Hc & Hm). apply (CP_mono s); auto.
    + intros Y. destruct (cvp s') as [|a q] eqn:Z; auto. assert (B : In a (cvp s)) by (apply Sp; left; auto). rewrite Y in B. destruct B.
    + intros Y. destruct (cvs s') as [|a q] eqn:Z; auto. assert (B : In a (cvs s)) by (apply Ss; left; auto). rewrite Y in B. destruct B.
    + intros u Y. destruct (Nat.eq_dec u t) as [U|U]; [ | apply (pact_same s); auto ].
      subst. unfold pact in *. unfold s'. rewrite pcs_set, Nat.eqb_refl, K in *. destruct o; auto.
    + intros u Y. destruct (Nat.eq_dec u t) as [U|U]; [ | apply (sact_same s); auto ].
      subst. unfold sact in *. unfold s'. rewrite pcs_set, Nat.eqb_refl, K in *. destruct o; auto.
    + intros u v Y. rewrite Pw; auto. intros ->; congruence.
  - destruct (wp_raise s W t o K).
  - (* broadcast *)
    assert (Kt : waits (pcs s t) = false) by (rewrite K; auto).
    assert (Np : ~ pact s t) by (unfold pact; rewrite K; auto). assert (Ns : ~ sact s t) by (unfold sact; rewrite K; auto).
    destruct (signal_view s v t W X Ct D A H' Kt) as [(Q & S)|(s1 & w & r' & o & S & Q & Nw & W1 & Ep & Ea & Et & Ei & Ec & Em & E1 & E2 & Kw & Ro & Nr & Oo)];
      rewrite Q in E.
    + assert (FF : v = CPush \/ cap s = None -> WP (finish s t ROk) /\ CP (finish s t ROk)).
      { intros V. split; auto. destruct (finish_view s t ROk A P) as (V1 & V2 & V3 & V4 & V5 & V6 & V7 & _).
        assert (Qs : cvs s = []) by (destruct V as [->|V]; [ exact Q | auto ]).
        constructor; [ | left; congruence | | congruence ].
        - rewrite V4, V1. destruct P1; auto. right. eapply cnt_mono; [ | | eauto ]; auto. intros; apply Fp; auto; congruence.
        - intros R. rewrite V2 in R. rewrite V4, V5. destruct (P3 R) as ([Y1|(c1 & Y1)] & _); split; auto.
          destruct v; [ left; exact Q | ]. right. exists c1. rewrite V7; auto. intros ->; congruence. }
      destruct v; [ destruct (cap s) eqn:Q2 | ]; inv_some E s'; auto.
      split; [ apply WP_pc; auto; rewrite K; auto | ].
      assert (Pw : forall u, u <> t -> pcs (set_pc s t (Cast CPush)) u = pcs s u) by (intros u U; rewrite set_pc_other; auto).
      constructor.
      * left. exact Q.
      * intros m Q1 R. right; left. exists t. rewrite pcs_set, Nat.eqb_refl; auto.
      * intros R. split; [ left; exact Q | right ]. exists t, CPush. rewrite pcs_set, Nat.eqb_refl; auto.
      * cbn [set_pc cap]. congruence.
    + inv_some E s'. rewrite S. cbn [fst]. split; auto. constructor.
      * rewrite Ei. destruct v.
        -- right. destruct P1 as [P1|P1]; [ cbn [cv] in Q; congruence | ]. eapply cnt_mono; [ | | exact P1 ]; auto.
           intros u Y. apply (pact_same s); auto; [ congruence | ]. cbn [cv] in *. rewrite E1, Q. right; auto.
        -- assert (Z : cvp s1 = cvp s) by (apply (E2 CPop); discriminate). rewrite Z. destruct P1 as [P1|P1]; auto. right.
           eapply cnt_mono; [ | | exact P1 ]; auto. intros u Y. apply (pact_same s); auto; congruence.
      * intros m Q1 R. rewrite Em in Q1. rewrite Ec in R. rewrite Ei, Ep. destruct v.
        -- assert (Z : cvs s1 = cvs s) by (apply (E2 CPush); discriminate). rewrite Z. destruct (P2 m Q1 R) as [Y|[Y|Y]]; auto.
           right; right. eapply cnt_mono; [ | | exact Y ]; auto. intros u Y1. apply (sact_same s); auto; congruence.
        -- right; left. exists t. auto.
      * intros R. rewrite Ec in R. rewrite Ep. destruct v.
        -- split; eauto.
        -- split; [ | eauto ]. destruct (P3 R) as (Y & _). assert (Z : cvp s1 = cvp s) by (apply (E2 CPop); discriminate). rewrite Z; auto.
      * rewrite Em. intros Z. specialize (P4 Z). destruct v; cbn [cv] in *; [ | congruence ].
        assert (Z1 : cvs s1 = cvs s) by (apply (E2 CPush); discriminate). congruence.
  - (* return *)
    inv_some E s'. set (s1 := match r with RItem x => set_got s (got s ++ [(t, x)]) | _ => s end).
    assert (Hi : items s1 = items s /\ closed s1 = closed s /\ cap s1 = cap s /\ cvp s1 = cvp s /\ cvs s1 = cvs s /\ mx s1 = mx s /\ pcs s1 = pcs s)
      by (unfold s1; destruct r; repeat split).
    destruct Hi as (Hi & Hc & Hm & Hp & Hs & Hx & Hk).
    assert (Np : ~ pact s t) by (unfold pact; rewrite K; auto). assert (Ns : ~ sact s t) by (unfold sact; rewrite K; auto).
    split; [ apply WP_pc; [ apply (WP_data s); auto | congruence | rewrite Hk, K; auto | auto ] | ].
    apply (CP_mono s); cbn [set_pc items closed cap cvp cvs]; try congruence.
    + intros u Y. assert (u <> t) by (intros ->; auto). apply (pact_same s); auto; cbn [set_pc cvp]; rewrite ?set_pc_other, ?Hk, ?Hp; auto.
    + intros u Y. assert (u <> t) by (intros ->; auto). apply (sact_same s); auto; cbn [set_pc cvs]; rewrite ?set_pc_other, ?Hk, ?Hs; auto.
    + intros u v Y. rewrite set_pc_other, Hk; auto. intros ->; congruence.
Qed.

Record Calm (s : qstate) : Prop := {
  c_hist : history false orderly (mx s);
  c_ctl : Ctl true s;
  c_dt : Dt s;
  c_wp : WP s;
  c_cp : CP s
}.

Lemma wq_run : forall s t m, wq s t -> step false (mx s) (Run t) = Some m -> Wt m -> Wt (mx s) -> wq (set_mx s m) t.
Proof.
  intros s t m W E X' X o Q N. specialize (W o Q). cbn [set_mx mx] in *.
  replace (cv (set_mx s m) (cv_of o)) with (cv s (cv_of o)) in N by (destruct (cv_of o); reflexivity). specialize (W N).
  cbn [step] in E. destruct (alive _); [ | discriminate ]. unfold run in E.
  pose proof (w_pcs _ X t) as Z. pose proof (w_pcs _ X' t) as Z'.
  destruct (at_ (thr (mx s) t)) as [|un|un|un|un|un|k|k| |] eqn:B; try discriminate; try contradiction.
  - destruct (owner (mx s)) as [o1|]; [ destruct (alive _) | ]; inv_some E m; rewrite ?thr_set, ?Nat.eqb_refl in *; cbn; auto.
    rewrite thr_own, B in *. auto.
  - destruct (permit _); inv_some E m; rewrite thr_set, Nat.eqb_refl in *; cbn; auto.
  - destruct (parked _); [ discriminate | ]. inv_some E m; rewrite thr_set, Nat.eqb_refl in *; cbn; auto.
  - destruct k; [ | contradiction ].
    assert (U : forall m0, match at_ (thr (unlock_turn m0 t KReturn) t) with UEntry KSleep | SReg | SPark => False | _ => True end).
    { intros m0. unfold unlock_turn. destruct (waiters m0); [ | destruct (alive _) ]; rewrite thr_set, Nat.eqb_refl; cbn; auto. }
    destruct (owner (mx s)) as [o1|]; [ destruct (Nat.eqb o1 t) | ]; inv_some E m.
    + specialize (U (set (set_owner (mx s) None) t (set_holds (thr (mx s) t) false))).
      destruct (at_ (thr (unlock_turn _ t KReturn) t)) as [| | | | | |[]| | |]; auto; contradiction.
    + rewrite thr_set, Nat.eqb_refl; cbn; auto.
    + rewrite thr_set, Nat.eqb_refl; cbn; auto.
  - rewrite W in E. inv_some E m; rewrite thr_set, Nat.eqb_refl in *; cbn; auto.
  - rewrite W in E. inv_some E m; rewrite thr_set, Nat.eqb_refl in *; cbn; auto.
Qed.

Lemma WP_mx : forall s t m, WP s -> (forall u, u <> t -> mono (mx s) m u) ->
  (alive (thr m t) = false -> alive (thr (mx s) t) = true -> pcs s t = QOut) -> wq (set_mx s m) t -> WP (set_mx s m).
Proof.
  intros s t m [W1 W2 W3 W4 W5 W6] M L Q. assert (C : forall c, cv (set_mx s m) c = cv s c) by (intros []; auto).
  constructor.
  - intros t0 A. rewrite pcs_mx. destruct (Nat.eq_dec t0 t) as [U|U].
    + subst. destruct (alive (thr (mx s) t)) eqn:B; auto.
    + apply W1. destruct (M t0 U) as (M1 & _). cbn [set_mx mx] in A. congruence.
  - intros t0 o. rewrite pcs_mx. apply W2.
  - intros c t0. rewrite C, pcs_mx. apply W3.
  - intros c. rewrite C. apply W4.
  - intros t0 o. rewrite C, pcs_mx. apply W5.
  - intros t0. destruct (Nat.eq_dec t0 t) as [U|U]; [ subst; auto | ]. apply (wq_mono s); auto.
Qed.
Lemma CP_mx : forall s m, CP s -> CP (set_mx s m).
Proof. intros s m C. apply (CP_mono s); auto. Qed.
Lemma wq_plain : forall s t, waits (pcs s t) = false -> wq s t.
Proof. intros s t K o Q. rewrite Q in K. discriminate. Qed.

Lemma calm_step : forall s l s', Calm s -> calm s l -> qstep s l = Some s' -> Calm s'.
Proof.
  intros s l s' [Hh Hc Hd Hw Hp] K E.
  assert (X : Wt (mx s)) by (apply history_Wt; auto).
  assert (C' : Ctl true s') by (eapply step_Ctl; eauto; apply (w_own _ X)).
  assert (D' : Dt s') by (apply (step_Dt true s l s'); auto; apply (w_own _ X)).
  assert (R : history false orderly (mx s') /\ WP s' /\ CP s'); [ | destruct R as (R1 & R2 & R3); constructor; auto ].
  assert (ONE : forall l0 m, orderly (mx s) l0 -> step false (mx s) l0 = Some m -> history false orderly m)
    by (intros; eapply h_step; eauto).
  destruct l; cbn [qstep calm] in *; try contradiction.
  - unfold qcall in E. destruct (pcs s t) eqn:P; try discriminate.
    destruct (step false (mx s) (Lock t)) as [m|] eqn:L; [ | discriminate ].
    destruct (is_out (at_ (thr m t))) eqn:B; inv_some E s'; auto.
    split; [ eapply ONE; eauto; exact I | ].
    assert (M : alive (thr m t) = true /\ forall u, u <> t -> mono (mx s) m u).
    { cbn [step] in L. destruct (alive (thr (mx s) t)) eqn:A; [ | discriminate ]. destruct (is_out _); [ | discriminate ]. cbn [andb] in L.
      destruct (owner (mx s)) as [o1|]; [ destruct (Nat.eqb o1 t) | ]; inv_some L m; rewrite ?thr_set, ?Nat.eqb_refl; auto;
        (split; [ auto | intros; try apply mono_refl; apply mono_set; auto ]). }
    destruct M as (M1 & M). split.
    + apply (WP_move s _ t); auto.
      * intros u U. rewrite set_pc_other; auto.
      * rewrite P; auto.
      * rewrite pcs_set, Nat.eqb_refl; auto.
      * cbn [set_pc set_mx mx]. congruence.
    + assert (Np : ~ pact s t) by (unfold pact; rewrite P; auto). assert (Ns : ~ sact s t) by (unfold sact; rewrite P; auto).
      apply (CP_mono s); auto.
      * intros u Y. apply (pact_same s); auto. rewrite set_pc_other; auto. intros ->; auto.
      * intros u Y. apply (sact_same s); auto. rewrite set_pc_other; auto. intros ->; auto.
      * intros u v Y. rewrite set_pc_other; auto. intros ->; congruence.
  - unfold qrun in E. destruct (alive (thr (mx s) t)) eqn:A; [ | discriminate ].
    destruct (is_out (at_ (thr (mx s) t))) eqn:B.
    + assert (P : at_ (thr (mx s) t) = Out) by (destruct (at_ (thr (mx s) t)); try discriminate; auto).
      split; [ | eapply calm_turn; eauto ].
      eapply mstar_history; [ exact Hh | ]. eapply turn_mstar; [ .. | exact E ]; intros; exact I.
    + destruct (step false (mx s) (Run t)) as [m|] eqn:L; [ | discriminate ]. inv_some E s'.
      assert (H1 : history false orderly m) by (eapply ONE; eauto; exact I). split; [ exact H1 | ].
      split; [ | apply CP_mx; auto ].
      pose proof (frame_step _ _ _ L) as F. cbn [names] in F. pose proof (run_view _ _ _ L (w_own _ X)) as (V1 & _).
      apply (WP_mx s t); auto.
      * intros u U. apply (run_other _ t); auto.
      * pose proof (run_view _ _ _ L (w_own _ X)) as V; cbv zeta in V; destruct V as (V2 & V3 & _); congruence.
      * apply wq_run; auto; [ apply (wp_wq s Hw) | apply history_Wt; auto ].
  - unfold qunwind in E. destruct (alive _); [ | discriminate ]. rewrite K in E. destruct (is_out _).
    + inv_some E s'. auto.
    + destruct (step false (mx s) (Unwind t)); discriminate.
  - cbn [step] in E. inv_some E s'. split; [ eapply (ONE (Wakeup t p)); [ exact I | reflexivity ] | ].
    split; [ | apply CP_mx; auto ]. apply (WP_mx s t); auto.
    + intros; apply mono_wakeup.
    + intros B A. destruct (mono_wakeup (mx s) t p t) as (M1 & _). congruence.
    + apply (wq_mono s); auto; [ apply (wp_wq s Hw) | apply mono_wakeup ].
  - destruct (pcs s t) eqn:P; try discriminate. cbn [qout] in E.
    destruct (step false (mx s) (Consume t)) as [m|] eqn:L; [ | discriminate ]. inv_some E s'.
    split; [ eapply ONE; eauto; exact I | ]. split; [ | apply CP_mx; auto ].
    apply (WP_mx s t); auto; [ | apply wq_plain; rewrite pcs_mx, P; auto ].
    cbn [step] in L. destruct (is_out _); [ | discriminate ]. inv_some L m. intros; apply mono_set; auto.
  - destruct (pcs s t) eqn:P; try discriminate. cbn [qout] in E.
    destruct (step false (mx s) (Die t)) as [m|] eqn:L; [ | discriminate ]. inv_some E s'.
    cbn [step] in L. destruct (alive (thr (mx s) t)) eqn:A; [ | discriminate ].
    assert (Ho : holds (thr (mx s) t) = false).
    { pose proof (Hc t A) as Z. rewrite P in Z. unfold ctl in Z.
      destruct (at_ (thr (mx s) t)) as [|[]|[]|[]|[]|[]|[]|[]| |]; rewrite ?andb_false_r in Z; try discriminate.
      destruct (holds _); auto; discriminate. }
    split; [ apply (ONE (Die t)); [ exact Ho | cbn [step]; rewrite A; exact L ] | ]. split; [ | apply CP_mx; auto ].
    apply (WP_mx s t); auto; [ | apply wq_plain; rewrite pcs_mx, P; auto ].
    cbn [andb] in L; destruct (is_out _); [ | discriminate ]. inv_some L m. intros; apply mono_set; auto.
Qed.

Lemma calm_inv : forall m s, qhistory m calm s -> Calm s.
Proof.
  intros m s H. induction H as [|s l s' H IH K E]; [ | eapply calm_step; eauto ].
  constructor; [ constructor | intros t _; reflexivity | intros t _; exact I | | ].
  - constructor; cbn; try discriminate.
    + intros [] t [].
    + intros []; constructor.
  - constructor; cbn; auto.
Qed.

Lemma holder_goes : forall s u, Calm s -> alive (thr (mx s) u) = true -> holds (thr (mx s) u) = true -> goes_on s.
Proof.
  intros s u [Hh Hc Hd Hw Hp] A H. pose proof (history_Wt _ Hh) as X. exists u. split; [ exact A | ]. pose proof (Hc u A) as C. unfold ctl in C.
  pose proof (w_park _ X u) as K.
  destruct (at_ (thr (mx s) u)) as [|[]|[]|[]|[]|[]|[]|[]| |]; try rewrite H in C; try discriminate; split;
    try (intros Q; rewrite Q in C; discriminate);
    (destruct (parked (thr (mx s) u)); [ destruct K; auto | auto ]).
Qed.

Lemma act_goes : forall s u, Calm s -> pact s u \/ sact s u -> goes_on s.
Proof.
  intros s u Cs Y. pose proof Cs as [Hh Hc Hd Hw Hp]. pose proof (history_Wt _ Hh) as X.
  assert (N : pcs s u <> QOut) by (intros Q; destruct Y as [Y|Y]; unfold pact, sact in Y; rewrite Q in Y; auto).
  assert (A : alive (thr (mx s) u) = true) by (destruct (alive (thr (mx s) u)) eqn:A; auto; destruct N; apply (wp_dead s Hw); auto).
  destruct (parked (thr (mx s) u)) eqn:PK; [ | exists u; auto ].
  pose proof (w_park _ X u PK) as K. pose proof (Hc u A) as C.
  destruct (at_ (thr (mx s) u)) as [| | | | |un|k|k| |] eqn:B; try contradiction.
  - destruct (owner (mx s)) as [o|] eqn:O.
    + pose proof (w_alive _ X o O) as Ao. destruct (w_own _ X) as (_ & O2). eapply holder_goes; eauto.
    + destruct (taker _ Hh) with (t := u) as (v & V1 & V2 & V3).
      * unfold free. rewrite O. exact I.
      * unfold stuck_waiter. rewrite B. auto.
      * exists v. split; auto. split; auto. intros Q. pose proof (Hc v V1) as Cv. rewrite Q in Cv. unfold ctl in Cv.
        destruct (at_ (thr (mx s) v)) as [|[]|[]|[]|[]|[]|[]|[]| |]; try discriminate; rewrite ?andb_false_r in Cv; discriminate.
  - exfalso. unfold ctl in C. rewrite B in C. apply andb_true_iff in C as (_ & C).
    destruct (pcs s u) as [| | | | | | |o| | |] eqn:Q; try discriminate.
    assert (NI : ~ In u (cv s (cv_of o))) by (destruct Y as [Y|Y]; unfold pact, sact in Y; rewrite Q in Y; destruct o; try contradiction; exact Y).
    pose proof (wp_wq s Hw u o Q NI) as Z. rewrite B in Z. congruence.
Qed.

Lemma cnt_goes : forall s n, Calm s -> CNT (pact s) (S n) \/ CNT (sact s) (S n) -> goes_on s.
Proof.
  intros s n C [(l & N & F & L)|(l & N & F & L)]; destruct l as [|u l]; cbn in L; try lia; inversion F; subst; eapply act_goes; eauto.
Qed.
Lemma cast_goes : forall s c v, Calm s -> pcs s c = Cast v -> goes_on s.
Proof.
  intros s c v C Q. pose proof C as [Hh Hc Hd Hw Hp].
  assert (A : alive (thr (mx s) c) = true) by (destruct (alive (thr (mx s) c)) eqn:A; auto; pose proof (wp_dead s Hw c A); congruence).
  pose proof (Hc c A) as Cc. destruct (critical_holds true _ _ Cc) as (_ & H); [ rewrite Q; auto | ]. eapply holder_goes; eauto.
Qed.

Lemma blocked_in : forall s c t, Calm s -> blocked s c t -> In t (cv s c).
Proof.
  intros s c t C (A & B & P & o & Q & R). pose proof C as [Hh Hc Hd Hw Hp].
  destruct (in_dec Nat.eq_dec t (cv s c)) as [I|I]; auto. rewrite <- R in I. pose proof (wp_wq s Hw t o Q I) as Z. rewrite P in Z. congruence.
Qed.

Lemma consumer_served : forall m s t, qhistory m calm s -> blocked s CPop t -> items s <> [] \/ closed s = true -> goes_on s.
Proof.
  intros m s t H B K. pose proof (calm_inv _ _ H) as C. pose proof (blocked_in _ _ _ C B) as I. cbn [cv] in I.
  assert (NE : cvp s <> []) by (intros Q; rewrite Q in I; destruct I). pose proof (c_cp s C) as [P1 P2 P3 P4].
  destruct K as [K|K].
  - destruct P1 as [P1|P1]; [ contradiction | ]. destruct (items s) as [|x l]; [ contradiction | ]. eapply cnt_goes; eauto.
  - destruct (P3 K) as ([Z|(c & Z)] & _); [ contradiction | ]. eapply cast_goes; eauto.
Qed.
Lemma producer_served : forall m s t, qhistory m calm s -> blocked s CPush t -> has_room s \/ closed s = true -> goes_on s.
Proof.
  intros m s t H B K. pose proof (calm_inv _ _ H) as C. pose proof (blocked_in _ _ _ C B) as I. cbn [cv] in I.
  assert (NE : cvs s <> []) by (intros Q; rewrite Q in I; destruct I). pose proof (c_cp s C) as [P1 P2 P3 P4].
  destruct (closed s) eqn:Q.
  - destruct (P3 eq_refl) as (_ & [Z|(c & v & Z)]); [ contradiction | ]. eapply cast_goes; eauto.
  - destruct K as [K|K]; [ | discriminate ]. unfold has_room in K. destruct (cap s) as [n|]; [ | destruct NE; auto ].
    destruct (P2 n eq_refl eq_refl) as [Z|[(c & Z)|Z]]; [ contradiction | eapply cast_goes; eauto | ].
    replace (n - length (items s)) with (S (n - length (items s) - 1)) in Z by lia. eapply cnt_goes; eauto.
Qed.

(** ** Refutations *)
Fixpoint qsteps_b (okb : qstate -> qlabel -> bool) (s : qstate) (ls : list qlabel) : option qstate :=
  match ls with
  | [] => Some s
  | l :: r => if okb s l then match qstep s l with Some s' => qsteps_b okb s' r | None => None end else None
  end.
Lemma qsteps_history : forall m (ok : qstate -> qlabel -> Prop) okb ls s s', (forall s l, okb s l = true -> ok s l) ->
  qhistory m ok s -> qsteps_b okb s ls = Some s' -> qhistory m ok s'.
Proof.
  intros m ok okb ls. induction ls as [|l ls IH]; intros s s' A H E; cbn in E.
  - inv_some E s'. auto.
  - destruct (okb s l) eqn:K; [ | discriminate ]. destruct (qstep s l) as [s1|] eqn:Q; [ | discriminate ].
    eapply IH; [ auto | | exact E ]. eapply qh_step; eauto.
Qed.
Lemma qsteps_out : forall okb us ls s s', (forall u, ~ In u us -> pcs s u = QOut) ->
  forallb (fun l => existsb (Nat.eqb (qname l)) us) ls = true -> qsteps_b okb s ls = Some s' -> forall u, ~ In u us -> pcs s' u = QOut.
Proof.
  intros okb us ls. induction ls as [|l ls IH]; intros s s' A F E u N; cbn in *.
  - inv_some E s'. auto.
  - destruct (okb s l); [ | discriminate ]. destruct (qstep s l) as [s1|] eqn:Q; [ | discriminate ]. apply andb_true_iff in F as (F1 & F2).
    assert (Nm : forall v, ~ In v us -> v <> qname l).
    { intros v Nv ->. apply Nv. apply existsb_exists in F1 as (x & X1 & X2). apply Nat.eqb_eq in X2. congruence. }
    eapply (IH s1); eauto. intros v Nv. specialize (Nm v Nv).
    destruct (qstep_cases _ _ _ Q) as [(t & timed & -> & _ & _ & T)|(_ & P & _)].
    + rewrite (turn_pcs _ _ _ _ v T); auto.
    + rewrite P; auto.
Qed.

Definition stuck (r : option qstate) (t : nat) (us : list nat) : bool :=
  match r with
  | Some s => alive (thr (mx s) t) && parked (thr (mx s) t) &&
              match at_ (thr (mx s) t) with SPark => true | _ => false end &&
              match pcs s t with Parked (Pop _) => true | _ => false end &&
              match items s with [] => false | _ => true end &&
              forallb (fun u => negb (alive (thr (mx s) u)) || qout (pcs s u) || parked (thr (mx s) u)) us
  | None => false
  end.
Lemma stuck_ok : forall m (ok : qstate -> qlabel -> Prop) okb ls t us, (forall s l, okb s l = true -> ok s l) ->
  forallb (fun l => existsb (Nat.eqb (qname l)) us) ls = true -> stuck (qsteps_b okb (qinit m) ls) t us = true ->
  exists s, qhistory m ok s /\ blocked s CPop t /\ items s <> [] /\ ~ goes_on s.
Proof.
  intros m ok okb ls t us A F K. destruct (qsteps_b okb (qinit m) ls) as [s|] eqn:E; [ | discriminate ]. exists s.
  cbn [stuck] in K. repeat (apply andb_true_iff in K as (K & ?)).
  split; [ eapply qsteps_history; eauto; constructor | ]. split; [ | split ].
  - split; [ auto | ]. split; [ auto | ]. split; [ destruct (at_ (thr (mx s) t)); auto; discriminate | ].
    destruct (pcs s t) as [| | | | | | |o| | |]; try discriminate. exists o. split; auto. destruct o; try discriminate; auto.
  - destruct (items s); [ discriminate | congruence ].
  - intros (u & U1 & U2 & U3). destruct (in_dec Nat.eq_dec u us) as [I|I].
    + match goal with H : forallb _ us = true |- _ => rewrite forallb_forall in H; specialize (H u I); rewrite U1, U3 in H end.
      cbn in *. destruct (pcs s u); try discriminate. congruence.
    + apply U2. eapply (qsteps_out okb us ls (qinit m)); eauto.
Qed.

Definition go (t : nat) (n : nat) : list qlabel := repeat (QRun t false) n.
Definition wait_in_pop (t : nat) : list qlabel := Call t (Pop false) :: go t 6.
Definition waiting_b (s : qstate) (l : qlabel) : bool :=
  match l with
  | QUnwind t => match pcs s t with Parked _ => true | _ => false end
  | QFork _ | QReport _ => false
  | _ => true
  end.
Lemma waiting_ok : forall s l, waiting_b s l = true -> in_wait s l.
Proof. intros s [] H; cbn in *; auto; try discriminate. destruct (pcs s t); try discriminate. eauto. Qed.
Definition signalled_then_killed : list qlabel :=
  wait_in_pop 1 ++ wait_in_pop 2 ++ [Call 3 (Push 7 false)] ++ go 3 5 ++ [QUnwind 1] ++ go 1 4.
Lemma signalled_then_killed_bad :
  exists s, qhistory None in_wait s /\ blocked s CPop 2 /\ items s <> [] /\ ~ goes_on s.
Proof. apply (stuck_ok None in_wait waiting_b signalled_then_killed 2 [1; 2; 3] waiting_ok); vm_compute; reflexivity. Qed.

Definition signalling_b (s : qstate) (l : qlabel) : bool :=
  match l with
  | QUnwind t => match pcs s t with Sig => true | _ => false end
  | QFork _ | QReport _ => false
  | _ => true
  end.
Lemma signalling_ok : forall s l, signalling_b s l = true -> in_push s l.
Proof. intros s [] H; cbn in *; auto; try discriminate. destruct (pcs s t); try discriminate. auto. Qed.
Definition killed_before_signal : list qlabel :=
  wait_in_pop 2 ++ [Call 3 (Push 7 false)] ++ go 3 2 ++ [QUnwind 3] ++ go 3 2.
Lemma killed_before_signal_bad :
  exists s, qhistory None in_push s /\ blocked s CPop 2 /\ items s <> [] /\ ~ goes_on s.
Proof. apply (stuck_ok None in_push signalling_b killed_before_signal 2 [2; 3] signalling_ok); vm_compute; reflexivity. Qed.

Definition all_b (s : qstate) (l : qlabel) : bool := true.
Definition lst (a b : list nat) : bool := if list_eq_dec Nat.eq_dec a b then true else false.
Definition popped (r : option qstate) (t : nat) : bool :=
  match r with
  | Some s => lst (taken s t) [7] && lst (returned s t) [] && lst (items s) [] && qout (pcs s t)
  | None => false
  end.
Definition interrupted_pop : list qlabel :=
  [Call 3 (Push 7 false)] ++ go 3 5 ++ [Call 1 (Pop false)] ++ go 1 3 ++ [QUnwind 1].
Definition interrupted_sized_pop : list qlabel :=
  [Call 3 (Push 7 false)] ++ go 3 5 ++ [Call 1 (Pop false)] ++ go 1 3 ++ [QUnwind 1] ++ go 1 2.
Lemma lst_eq : forall a b, lst a b = true -> a = b.
Proof. intros a b H. unfold lst in H. destruct (list_eq_dec Nat.eq_dec a b); auto; discriminate. Qed.
Lemma lost_item : forall m ls t, popped (qsteps_b all_b (qinit m) ls) t = true ->
  exists s, qhistory m any_step s /\ taken s t = [7] /\ returned s t = [] /\ in_hand s t = [] /\ items s = [].
Proof.
  intros m ls t P. destruct (qsteps_b all_b (qinit m) ls) as [s|] eqn:E; [ | discriminate ]. exists s. unfold popped in P.
  repeat (apply andb_true_iff in P as (P & ?)).
  split; [ eapply (qsteps_history m any_step all_b); [ intros; exact I | constructor | exact E ] | ].
  repeat split; try (apply lst_eq; auto). unfold in_hand. destruct (pcs s t); try discriminate. auto.
Qed.
Lemma interrupted_pop_bad : exists s, qhistory None any_step s /\ taken s 1 = [7] /\ returned s 1 = [] /\ in_hand s 1 = [] /\ items s = [].
Proof. apply (lost_item None interrupted_pop). vm_compute. reflexivity. Qed.
Lemma interrupted_sized_pop_bad : exists s, qhistory (Some 5) any_step s /\ taken s 1 = [7] /\ returned s 1 = [] /\ in_hand s 1 = [] /\ items s = [].
Proof. apply (lost_item (Some 5) interrupted_sized_pop). vm_compute. reflexivity. Qed.

(** ** push puts its item in *)
Lemma turn_sig : forall s t timed s', alive (thr (mx s) t) = true -> at_ (thr (mx s) t) = Out ->
  turn s t timed = Some s' ->
  (pcs s' t = Sig -> pcs s t <> Sig -> exists x nb, pcs s t = Body (Push x nb) /\ items s' = items s ++ [x] /\ closed s = false) /\
  (pcs s' t = Fin ROk -> pcs s t <> Fin ROk -> forall x nb, pcs s t <> Body (Push x nb)).
Proof.
  intros s t timed s' A P E.
  assert (F : forall s1 r, mx s1 = mx s -> pcs (finish s1 t r) t = Fin r).
  { intros s1 r Q. apply finish_at; congruence. }
  assert (Fq : forall s1 r, quiet (mx s) (mx s1) -> pcs (finish s1 t r) t = Fin r).
  { intros s1 r Q. destruct (Q t) as (Q1 & Q2 & _). apply finish_at; congruence. }
  unfold turn in E. destruct (pcs s t) as [|o| | |r|o|o|o|o|v|r] eqn:K; try discriminate;
    (split; [ | intros H1 H2 x' nb'; try congruence ]).
  - intros H1 _. destruct o as [x nb|nb| | |m];
    [ destruct (closed s) eqn:C; [ | destruct (full s); [ destruct nb; [ | destruct timed ] | ] ]
    | destruct (items s); [ destruct nb; [ | destruct (closed s); [ | destruct timed ] ] | ]
    | destruct (closed s)
    | destruct (cap s)
    | destruct (cap s); [ destruct (Nat.ltb _ _) | ] ];
    inv_some E s'; rewrite ?F, ?pcs_set, ?Nat.eqb_refl in H1 by reflexivity; try discriminate.
    exists x, nb. auto.
  - destruct o as [x nb|nb| | |m]; try discriminate.
    destruct (closed s) eqn:C; [ | destruct (full s); [ destruct nb; [ | destruct timed ] | ] ];
    inv_some E s'; rewrite ?F, ?pcs_set, ?Nat.eqb_refl in H1 by reflexivity; try discriminate.
  - intros _ []; auto.
  - intros H1 _. destruct (items s); destruct (cap s); inv_some E s'; rewrite ?F, ?pcs_set, ?Nat.eqb_refl in H1 by reflexivity; discriminate.
  - intros H1 _. pose proof (signal_pcs s CPush) as S2. pose proof (signal_quiet s CPush) as S3. destruct (signal s CPush) as (s1, again).
    cbn [fst] in *. destruct again; inv_some E s'; [ congruence | rewrite Fq in H1; auto; discriminate ].
  - intros H1 _. inv_some E s'. rewrite pcs_set, Nat.eqb_refl in H1. discriminate.
  - intros H1 _. destruct (step false (mx s) (Sleep t)) as [m|]; [ | discriminate ].
    destruct (is_out _); inv_some E s'; rewrite ?F, ?pcs_set, ?Nat.eqb_refl in H1 by (unfold unregister; apply mx_cv); discriminate.
  - intros H1 _. inv_some E s'. rewrite pcs_set, Nat.eqb_refl in H1. discriminate.
  - intros H1 _. inv_some E s'. rewrite F in H1 by (unfold unregister; apply mx_cv). discriminate.
  - intros H1 _. destruct (cv s v); [ destruct v; [ destruct (cap s) | ] | ]; inv_some E s';
      rewrite ?F, ?pcs_set, ?Nat.eqb_refl in H1 by reflexivity; try discriminate. rewrite signal_pcs in H1. congruence.
  - intros H1 _. inv_some E s'. rewrite pcs_set, Nat.eqb_refl in H1. discriminate.
Qed.
Lemma push_effect : forall s l s' t, qstep s l = Some s' ->
  (pcs s' t = Sig -> pcs s t <> Sig -> exists x nb, pcs s t = Body (Push x nb) /\ items s' = items s ++ [x] /\ closed s = false) /\
  (forall x nb, pcs s t = Body (Push x nb) -> pcs s' t <> Fin ROk).
Proof.
  intros s l s' t E.
  destruct (qstep_cases s l s' E) as [(u & timed & L & A & P & T)|(S & O & X)].
  - destruct (Nat.eq_dec t u) as [U|U].
    + subst u. destruct (turn_sig s t timed s' A P T) as (T1 & T2). split; auto. intros x nb K Q. apply (T2 Q) with (x := x) (nb := nb); auto. congruence.
    + rewrite (turn_pcs _ _ _ _ t T) by auto. split; [ contradiction | intros; congruence ].
  - destruct (Nat.eq_dec t (qname l)) as [U|U].
    + subst t. destruct X as [X|[(o & X & Y)|(t & L & X)]].
      * rewrite X. split; [ contradiction | intros; congruence ].
      * rewrite X. split; [ discriminate | intros; congruence ].
      * subst l. cbn [qname]. destruct X as [X|[X|(o & X & Y)]]; rewrite X; (split; [ discriminate | intros; congruence ]).
    + rewrite O by auto. split; [ contradiction | intros; congruence ].
Qed.

(** Only threads inside [wait] are registered with a condition variable. *)
Definition registered_at (s : qstate) (c : cvar) (u : nat) : Prop :=
  exists o, cv_of o = c /\ (pcs s u = Reg o \/ pcs s u = Parked o \/ pcs s u = Raising o).
Definition RG (s : qstate) : Prop := forall c u, In u (cv s c) -> registered_at s c u.
Lemma RG_move : forall s s' t, RG s -> (forall u, u <> t -> pcs s' u = pcs s u) ->
  (forall c u, u <> t -> In u (cv s' c) -> In u (cv s c)) ->
  (forall c, In t (cv s' c) -> registered_at s' c t) -> RG s'.
Proof.
  intros s s' t R P C T c u I. destruct (Nat.eq_dec u t) as [->|N]; [ auto | ].
  apply C in I; auto. destruct (R c u I) as (o & A & B). exists o. rewrite (P u N). auto.
Qed.
Lemma cv_finish : forall s t r c, cv (finish s t r) c = cv s c.
Proof. intros. unfold finish. destruct (step _ _ _); destruct c; reflexivity. Qed.
Lemma cv_pc : forall s t p c, cv (set_pc s t p) c = cv s c.
Proof. intros. destruct c; reflexivity. Qed.
Lemma cv_mx : forall s m c, cv (set_mx s m) c = cv s c.
Proof. intros. destruct c; reflexivity. Qed.
Lemma cv_unreg : forall s c t c' u, In u (cv (unregister s c t) c') -> In u (cv s c') /\ (c' = c -> u <> t).
Proof.
  intros s c t c' u. unfold unregister. destruct c, c'; cbn [cv set_cv cvp cvs]; intros I;
    try (apply in_delete in I as (I & N)); split; auto; discriminate.
Qed.
Lemma cv_signal : forall s c c' u, In u (cv (fst (signal s c)) c') -> In u (cv s c').
Proof.
  intros s c c' u. unfold signal. destruct (cv s c) as [|w r] eqn:Q; [ auto | ].
  destruct (alive _); cbn [fst]; rewrite ?cv_mx; destruct c, c'; cbn [cv set_cv cvp cvs] in *; intros I; auto; rewrite Q; right; auto.
Qed.
(** A thread that is not waiting is in neither list. *)
Lemma RG_not : forall s c t, RG s -> waits (pcs s t) = false -> ~ In t (cv s c).
Proof. intros s c t R W I. destruct (R c t I) as (o & _ & [Z|[Z|Z]]); rewrite Z in W; discriminate. Qed.
Lemma RG_which : forall s c t o, RG s -> pcs s t = Reg o \/ pcs s t = Parked o \/ pcs s t = Raising o -> In t (cv s c) -> c = cv_of o.
Proof. intros s c t o R P I. destruct (R c t I) as (o' & A & B). destruct P as [P|[P|P]], B as [B|[B|B]]; congruence. Qed.

Lemma RG_turn : forall s t timed s', RG s -> alive (thr (mx s) t) = true -> at_ (thr (mx s) t) = Out -> turn s t timed = Some s' -> RG s'.
Proof.
  intros s t timed s' R A P E. 
  apply (RG_move s s' t R (fun u => turn_pcs s t timed s' u E)).
  - intros c u U I. unfold turn in E. destruct (pcs s t) as [|o| | |r|o|o|o|o|v|r] eqn:K; try discriminate.
    + destruct o as [x nb|nb| | |m].
      * destruct (closed s); [ inv_some E s'; now rewrite cv_finish in I | ].
        destruct (full s); [ destruct nb; [ | destruct timed ] | ]; inv_some E s'; rewrite ?cv_finish, ?cv_pc in I; auto; destruct c; auto.
      * destruct (items s); [ destruct nb; [ | destruct (closed s); [ | destruct timed ] ] | ]; inv_some E s'; rewrite ?cv_finish, ?cv_pc in I; auto.
      * destruct (closed s); inv_some E s'; rewrite ?cv_finish, ?cv_pc in I; auto; destruct c; auto.
      * destruct (cap s); inv_some E s'; rewrite ?cv_finish, ?cv_pc in I; auto; destruct c; auto.
      * destruct (cap s); [ destruct (Nat.ltb n m) | ]; inv_some E s'; rewrite ?cv_finish, ?cv_pc in I; auto; destruct c; auto.
    + pose proof (cv_signal s CPop c u) as S2. destruct (signal s CPop) as (s1, again). cbn [fst] in *.
      destruct again; inv_some E s'; rewrite ?cv_finish in I; auto.
    + destruct (items s); destruct (cap s); inv_some E s'; rewrite ?cv_finish, ?cv_pc in I; auto; destruct c; auto.
    + pose proof (cv_signal s CPush c u) as S2. destruct (signal s CPush) as (s1, again). cbn [fst] in *.
      destruct again; inv_some E s'; rewrite ?cv_finish in I; auto.
    + inv_some E s'. rewrite cv_pc in I. destruct o, c; cbn [cv set_cv cv_of cvp cvs] in I; auto; apply in_app_iff in I as [I|[I|[]]]; auto; congruence.
    + destruct (step false (mx s) (Sleep t)) as [m|]; [ | discriminate ].
      destruct (is_out _); inv_some E s'; rewrite ?cv_finish, ?cv_pc, ?cv_mx in I; auto. apply cv_unreg in I; tauto.
    + inv_some E s'. rewrite cv_pc in I. apply cv_unreg in I; tauto.
    + inv_some E s'. rewrite cv_finish in I. apply cv_unreg in I; tauto.
    + destruct (cv s v) eqn:V; [ destruct v; [ destruct (cap s) | ] | ]; inv_some E s'; rewrite ?cv_finish, ?cv_pc in I; auto; apply (cv_signal s v); auto.
    + inv_some E s'. rewrite cv_pc in I. destruct r, c; auto.
  - intros c I. unfold turn in E. destruct (pcs s t) as [|o| | |r|o|o|o|o|v|r] eqn:K; try discriminate.
    + exfalso. apply (RG_not s c t R); [ rewrite K; auto | ]. destruct o as [x nb|nb| | |m].
      * destruct (closed s); [ inv_some E s'; now rewrite cv_finish in I | ].
        destruct (full s); [ destruct nb; [ | destruct timed ] | ]; inv_some E s'; rewrite ?cv_finish, ?cv_pc in I; auto; destruct c; auto.
      * destruct (items s); [ destruct nb; [ | destruct (closed s); [ | destruct timed ] ] | ]; inv_some E s'; rewrite ?cv_finish, ?cv_pc in I; auto.
      * destruct (closed s); inv_some E s'; rewrite ?cv_finish, ?cv_pc in I; auto; destruct c; auto.
      * destruct (cap s); inv_some E s'; rewrite ?cv_finish, ?cv_pc in I; auto; destruct c; auto.
      * destruct (cap s); [ destruct (Nat.ltb n m) | ]; inv_some E s'; rewrite ?cv_finish, ?cv_pc in I; auto; destruct c; auto.
    + exfalso. apply (RG_not s c t R); [ rewrite K; auto | ].
      pose proof (cv_signal s CPop c t) as S2. destruct (signal s CPop) as (s1, again). cbn [fst] in *.
      destruct again; inv_some E s'; rewrite ?cv_finish in I; auto.
    + exfalso. apply (RG_not s c t R); [ rewrite K; auto | ].
      destruct (items s); destruct (cap s); inv_some E s'; rewrite ?cv_finish, ?cv_pc in I; auto; destruct c; auto.
    + exfalso. apply (RG_not s c t R); [ rewrite K; auto | ].
      pose proof (cv_signal s CPush c t) as S2. destruct (signal s CPush) as (s1, again). cbn [fst] in *.
      destruct again; inv_some E s'; rewrite ?cv_finish in I; auto.
    + inv_some E s'. rewrite cv_pc in I. exists o. rewrite pcs_set, Nat.eqb_refl. split; [ | auto ].
      assert (N : forall c, ~ In t (cv s c)) by (intros c0; apply RG_not; [ auto | rewrite K; auto ]).
      destruct (cv_of o) eqn:Z; destruct c; auto; cbn [cv set_cv cvp cvs] in I; exfalso; [ apply (N CPush) | apply (N CPop) ]; auto.
    + destruct (step false (mx s) (Sleep t)) as [m|]; [ | discriminate ].
      destruct (is_out _); inv_some E s'; rewrite ?cv_finish, ?cv_pc, ?cv_mx in I; auto.
      * exfalso. apply cv_unreg in I as (I & N). apply N; auto. eapply RG_which; eauto.
      * exists o. rewrite pcs_set, Nat.eqb_refl. split; [ symmetry; eapply RG_which; eauto | auto ].
    + inv_some E s'. rewrite cv_pc in I. exfalso. apply cv_unreg in I as (I & N). apply N; auto. eapply RG_which; eauto.
    + inv_some E s'. rewrite cv_finish in I. exfalso. apply cv_unreg in I as (I & N). apply N; auto. eapply RG_which; eauto.
    + exfalso. apply (RG_not s c t R); [ rewrite K; auto | ].
      destruct (cv s v) eqn:V; [ destruct v; [ destruct (cap s) | ] | ]; inv_some E s'; rewrite ?cv_finish, ?cv_pc in I; auto; apply (cv_signal s v); auto.
    + exfalso. apply (RG_not s c t R); [ rewrite K; auto | ]. inv_some E s'. rewrite cv_pc in I. destruct r, c; auto.
Qed.
Lemma RG_step : forall s l s', RG s -> qstep s l = Some s' -> RG s'.
Proof.
  intros s l s' R E. destruct l; cbn [qstep] in E.
  - unfold qcall in E. destruct (pcs s t) eqn:P; try discriminate.
    destruct (step false (mx s) (Lock t)) as [m|]; [ | discriminate ].
    destruct (is_out _); inv_some E s'; auto.
    apply (RG_move s _ t R); [ intros; rewrite set_pc_other; auto | intros c u _; rewrite cv_pc, cv_mx; auto | ].
    intros c. rewrite cv_pc, cv_mx. intros I. exfalso. apply (RG_not s c t R); auto. now rewrite P.
  - unfold qrun in E. destruct (alive _) eqn:A; [ | discriminate ]. destruct (is_out (at_ (thr (mx s) t))) eqn:P.
    + eapply RG_turn; eauto. destruct (at_ (thr (mx s) t)); try discriminate; auto.
    + destruct (step false (mx s) (Run t)) as [m|]; [ | discriminate ]. inv_some E s'. intros c u. rewrite cv_mx. apply R.
  - pose proof (qstep_cases s (QUnwind t) s' E) as [(? & ? & Z & _)|(_ & PO & _)]; [ discriminate | ]. cbn [qname] in PO.
    apply (RG_move s s' t R PO); clear PO; unfold qunwind in E; (destruct (alive _) eqn:A; [ | discriminate ]);
      destruct (is_out (at_ (thr (mx s) t))) eqn:P.
    + intros c u U I. destruct (pcs s t) eqn:K; try discriminate; inv_some E s'; rewrite ?cv_finish in I; auto; apply cv_unreg in I; tauto.
    + intros c u U I. destruct (step false (mx s) (Unwind t)) as [m|]; [ | discriminate ].
      destruct (pcs s t) eqn:K; try discriminate; try destruct (is_out (at_ (thr m t))); inv_some E s'; rewrite ?cv_finish, ?cv_pc, ?cv_mx in I; auto.
      apply cv_unreg in I. rewrite cv_mx in I. tauto.
    + intros c I. destruct (pcs s t) eqn:K; try discriminate; inv_some E s'; rewrite ?cv_finish in I;
        try (exfalso; apply (RG_not s c t R); [ now rewrite K | auto ]; fail);
        try (exfalso; apply cv_unreg in I as (I & N); apply N; auto; eapply RG_which; eauto).
    + intros c I. destruct (step false (mx s) (Unwind t)) as [m|]; [ | discriminate ].
      destruct (pcs s t) eqn:K; try discriminate.
      * inv_some E s'. rewrite cv_pc, cv_mx in I. exfalso. apply (RG_not s c t R); [ now rewrite K | auto ].
      * destruct (is_out (at_ (thr m t))); inv_some E s'; rewrite ?cv_finish, ?cv_pc, ?cv_mx in I.
        -- exfalso. apply cv_unreg in I as (I & N). rewrite cv_mx in I. apply N; auto. eapply RG_which; eauto.
        -- exists o. rewrite pcs_set, Nat.eqb_refl. split; [ symmetry; eapply RG_which; eauto | auto ].
      * inv_some E s'. rewrite cv_pc, cv_mx in I. exfalso. apply (RG_not s c t R); [ now rewrite K | auto ].
  - destruct (step false (mx s) (Wakeup t p)); [ | discriminate ]; inv_some E s'; intros c u; rewrite cv_mx; apply R.
  - destruct (qout (pcs s t)); [ | discriminate ]. destruct (step false (mx s) (Consume t)); [ | discriminate ]; inv_some E s'; intros c u; rewrite cv_mx; apply R.
  - destruct (step false (mx s) (Report t)); [ | discriminate ]; inv_some E s'; intros c u; rewrite cv_mx; apply R.
  - destruct (qout (pcs s t)); [ | discriminate ]. destruct (step false (mx s) (Die t)); [ | discriminate ]; inv_some E s'; intros c u; rewrite cv_mx; apply R.
  - destruct (step false (mx s) (Fork t)); [ | discriminate ]; inv_some E s'; intros c u; rewrite cv_mx; apply R.
Qed.
Lemma registered : forall m ok s c u, qhistory m ok s -> In u (cv s c) -> registered_at s c u.
Proof.
  intros m ok s c u H. revert c u. induction H as [|s l s' H IH K E]; [ intros []; easy | ]. exact (RG_step s l s' IH E).
Qed.
