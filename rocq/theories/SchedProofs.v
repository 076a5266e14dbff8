From Coq Require Import ZArith List Bool Arith Lia.
From Verif Require Import SchedModel SchedSpec.
Import ListNotations.
Open Scope Z_scope.

Definition entries (s : sch) (t : nat) : list (option Z * nat) :=
  filter (fun e => Nat.eqb (snd e) t) (sleepers s).

Record Inv (s : sch) (cur : option nat) (n : nat) : Prop := {
  iv_nd : NoDup (ready s);
  iv_rd : forall t, In t (ready s) -> t <> 0%nat /\
          (stt (ths s t) = Created \/ stt (ths s t) = Runnable /\ resume (ths s t) = true);
  iv_cur : forall t, cur = Some t -> t <> 0%nat /\ ~ In t (ready s) /\ entries s t = [] /\
           (stt (ths s t) = Created \/ stt (ths s t) = Runnable);
  iv_all : forall t, t <> 0%nat -> stt (ths s t) = Created \/ stt (ths s t) = Runnable ->
           In t (ready s) \/ cur = Some t;
  iv_park : forall t, parked (stt (ths s t)) = true ->
            (t <> 0%nat -> resume (ths s t) = true) /\ (length (entries s t) <= 1)%nat /\
            (stt (ths s t) = IoWaiting -> entries s t = []);
  iv_new : forall t, stt (ths s t) = Created -> entries s t = [];
  iv_dl : forall t, stt (ths s t) = Sleeping -> forall e, In e (entries s t) -> fst e = dl (ths s t);
  iv_lt : forall t, (nxt s <= t)%nat -> stt (ths s t) = Dead /\ entries s t = [];
  iv_nxt : (1 <= nxt s)%nat;
  iv_main : stt (ths s 0%nat) = Runnable \/ parked (stt (ths s 0%nat)) = true;
  iv_n : (n <= length (ready s))%nat;
  iv_first : forall t, In t (firstn n (ready s)) -> entries s t = []
}.

Definition Fresh (s : sch) : Prop := forall t, parked (stt (ths s t)) = false -> entries s t = [].

Ltac eqd u t := let Q := fresh "Q" in destruct (Nat.eqb_spec u t) as [Q|?Hne]; [ try subst u; try subst t | ].

Lemma upd_same : forall f t x, upd f t x t = x.
Proof. intros; unfold upd; rewrite Nat.eqb_refl; auto. Qed.
Lemma upd_other : forall f t x u, u <> t -> upd f t x u = f u.
Proof. intros; unfold upd; destruct (Nat.eqb_spec u t); congruence. Qed.

Lemma ths_setth : forall s t x u, ths (setth s t x) u = if Nat.eqb u t then x else ths s u.
Proof. reflexivity. Qed.
Lemma entries_setth : forall s t x u, entries (setth s t x) u = entries s u.
Proof. reflexivity. Qed.

Lemma tstate_eqb_eq : forall x y, tstate_eqb x y = true <-> x = y.
Proof. intros [] []; cbn; split; congruence. Qed.

(** Same scheduling state of one thread. *)
Definition same_core (x y : thr) : Prop := stt x = stt y /\ resume x = resume y /\ dl x = dl y.

Lemma Inv_core : forall s cur n t x, Inv s cur n -> same_core x (ths s t) -> Inv (setth s t x) cur n.
Proof.
  intros s cur n t x I (E1 & E2 & E3).
  assert (T : forall u, stt (ths (setth s t x) u) = stt (ths s u) /\ resume (ths (setth s t x) u) = resume (ths s u)
            /\ dl (ths (setth s t x) u) = dl (ths s u)).
  { intros u; rewrite ths_setth. destruct (Nat.eqb_spec u t); subst; auto. }
  destruct I. constructor; cbn [setth ready sleepers nxt]; auto; intros;
    change (entries (setth s t x)) with (entries s) in *;
    repeat match goal with
    | H : context[ths (setth s t x) ?u] |- _ =>
        let a := fresh in let b := fresh in let c := fresh in
        destruct (T u) as (a & b & c); rewrite ?a, ?b, ?c in H; clear a b c
    | |- context[ths (setth s t x) ?u] =>
        let a := fresh in let b := fresh in let c := fresh in
        destruct (T u) as (a & b & c); rewrite ?a, ?b, ?c; clear a b c
    end; auto.
Qed.

Lemma Inv_now : forall s cur n d, Inv s cur n ->
  Inv (Sch (ths s) (nxt s) (ready s) (sleepers s) (iow s) (now s + d)) cur n.
Proof. intros s cur n d []; constructor; auto. Qed.
Lemma Inv_iow : forall s cur n l, Inv s cur n -> Inv (set_iow s l) cur n.
Proof. intros s cur n l []; constructor; auto. Qed.

Lemma NoDup_snoc : forall (l : list nat) x, NoDup l -> ~ In x l -> NoDup (l ++ [x]).
Proof.
  induction l as [|a l IH]; intros x N H; cbn; [ constructor; auto; constructor | ].
  inversion N; subst. constructor.
  - rewrite in_app_iff; intros [?|[->|[]]]; [ auto | apply H; left; auto ].
  - apply IH; auto. intros ?; apply H; right; auto.
Qed.

Lemma firstn_app_le : forall (A : Type) n (l r : list A), (n <= length l)%nat -> firstn n (l ++ r) = firstn n l.
Proof.
  intros A n l r H. rewrite firstn_app. replace (n - length l)%nat with 0%nat by lia.
  cbn; rewrite app_nil_r; auto.
Qed.

Lemma wake_ths : forall s t u, ths (wake s t) u = if Nat.eqb u t then set_stt (ths s t) Runnable else ths s u.
Proof. intros; unfold wake. destruct (Nat.eqb t 0); reflexivity. Qed.
Lemma wake_entries : forall s t u, entries (wake s t) u = entries s u.
Proof. intros; unfold wake. destruct (Nat.eqb t 0); reflexivity. Qed.
Lemma wake_ready : forall s t, ready (wake s t) = if Nat.eqb t 0 then ready s else ready s ++ [t].
Proof. intros; unfold wake. destruct (Nat.eqb t 0); reflexivity. Qed.
Lemma wake_nxt : forall s t, nxt (wake s t) = nxt s.
Proof. intros; unfold wake. destruct (Nat.eqb t 0); reflexivity. Qed.
Lemma wake_now : forall s t, now (wake s t) = now s.
Proof. intros; unfold wake. destruct (Nat.eqb t 0); reflexivity. Qed.
Lemma wake_iow : forall s t, iow (wake s t) = iow s.
Proof. intros; unfold wake. destruct (Nat.eqb t 0); reflexivity. Qed.

Lemma wake_Inv : forall s cur n t, Inv s cur n -> parked (stt (ths s t)) = true -> Inv (wake s t) cur n.
Proof.
  intros s cur n t I P.
  assert (NR : ~ In t (ready s)).
  { intros H. destruct (iv_rd _ _ _ I t H) as (_ & [E|(E & _)]); rewrite E in P; discriminate. }
  assert (NC : cur <> Some t).
  { intros H. destruct (iv_cur _ _ _ I t H) as (_ & _ & _ & [E|E]); rewrite E in P; discriminate. }
  assert (NL : (t < nxt s)%nat).
  { destruct (Nat.lt_ge_cases t (nxt s)); auto. destruct (iv_lt _ _ _ I t H) as (E & _). rewrite E in P; discriminate. }
  constructor.
  - rewrite wake_ready. destruct (Nat.eqb_spec t 0); [ apply I | ]. apply NoDup_snoc; auto. apply I.
  - intros u H. rewrite wake_ready in H. rewrite wake_ths. eqd u t.
    + eqd t 0%nat; [ contradiction | ]. split; auto.
      right; cbn. split; auto. apply (iv_park _ _ _ I t P); auto.
    + apply (iv_rd _ _ _ I). destruct (Nat.eqb t 0); auto.
      apply in_app_iff in H as [H|[H|[]]]; auto; congruence.
  - intros u H. destruct (iv_cur _ _ _ I u H) as (A & B & C & D). rewrite wake_ready, wake_entries, wake_ths.
    assert (u <> t) by congruence. destruct (Nat.eqb_spec u t); [ congruence | ].
    repeat split; auto. destruct (Nat.eqb t 0); auto. rewrite in_app_iff; intros [?|[?|[]]]; auto.
  - intros u H0 H. rewrite wake_ready. rewrite wake_ths in H. eqd u t.
    + left. destruct (Nat.eqb_spec t 0); [ congruence | ]. apply in_app_iff; right; left; auto.
    + destruct (iv_all _ _ _ I u H0 H) as [?|?]; auto. left. destruct (Nat.eqb t 0); auto. apply in_app_iff; auto.
  - intros u H. rewrite wake_entries. rewrite wake_ths in H; rewrite ?wake_ths. eqd u t;
      [ discriminate | apply (iv_park _ _ _ I u H) ].
  - intros u H. rewrite wake_entries. rewrite wake_ths in H. eqd u t;
      [ discriminate | apply (iv_new _ _ _ I u H) ].
  - intros u H. rewrite wake_entries. rewrite wake_ths in H; rewrite ?wake_ths. eqd u t;
      [ discriminate | apply (iv_dl _ _ _ I u H) ].
  - intros u H. rewrite wake_entries, wake_ths. rewrite wake_nxt in H. destruct (Nat.eqb_spec u t); [ lia | ].
    apply (iv_lt _ _ _ I u H).
  - rewrite wake_nxt; apply I.
  - rewrite wake_ths. destruct (Nat.eqb_spec 0 t) as [<-|Hne]; [ left; auto | apply I ].
  - rewrite wake_ready. pose proof (iv_n _ _ _ I). destruct (Nat.eqb t 0); auto. rewrite app_length; lia.
  - intros u H. rewrite wake_entries. apply (iv_first _ _ _ I). rewrite wake_ready in H.
    destruct (Nat.eqb t 0); auto. rewrite firstn_app_le in H; auto. apply I.
Qed.

(** Folding [wake]. *)
Lemma fold_wake_ths : forall l s u, ~ In u l -> ths (fold_left wake l s) u = ths s u.
Proof.
  induction l as [|t l IH]; intros s u H; auto. cbn. rewrite IH by (intros ?; apply H; right; auto).
  rewrite wake_ths. destruct (Nat.eqb_spec u t); auto. subst; exfalso; apply H; left; auto.
Qed.
Lemma fold_wake_in : forall l s u, In u l -> stt (ths (fold_left wake l s) u) = Runnable.
Proof.
  induction l as [|t l IH]; intros s u H; [ destruct H | ].
  cbn. destruct (in_dec Nat.eq_dec u l) as [Hl|Hl]; [ apply IH; auto | ].
  rewrite fold_wake_ths by auto. destruct H as [->|H]; [ | contradiction ].
  rewrite wake_ths, Nat.eqb_refl; auto.
Qed.
Lemma fold_wake_entries : forall l s u, entries (fold_left wake l s) u = entries s u.
Proof. induction l; intros; auto. cbn. rewrite IHl, wake_entries; auto. Qed.
Lemma fold_wake_now : forall l s, now (fold_left wake l s) = now s.
Proof. induction l; intros; auto. cbn. rewrite IHl, wake_now; auto. Qed.

Lemma fold_wake_Inv : forall l s cur n, NoDup l -> (forall t, In t l -> parked (stt (ths s t)) = true) ->
  Inv s cur n -> Inv (fold_left wake l s) cur n.
Proof.
  induction l as [|t l IH]; intros s cur n N P I; auto. cbn. inversion N; subst.
  apply IH; auto.
  - intros u H. rewrite wake_ths. destruct (Nat.eqb_spec u t); [ congruence | ]. apply P; right; auto.
  - apply wake_Inv; auto. apply P; left; auto.
Qed.

(** [wake_due] *)
Lemma filter_filter : forall (A : Type) (f g : A -> bool) l, filter f (filter g l) = filter (fun x => g x && f x) l.
Proof.
  induction l as [|a l IH]; auto. cbn. destruct (g a) eqn:G; cbn; rewrite ?IH; auto.
Qed.
Lemma filter_ext_in' : forall (A : Type) (f g : A -> bool) l, (forall x, In x l -> f x = g x) -> filter f l = filter g l.
Proof.
  induction l as [|a l IH]; intros H; auto. cbn. rewrite (H a) by (left; auto). rewrite IH by (intros; apply H; right; auto). auto.
Qed.

Lemma entries_filter_len : forall s f t,
  (length (filter (fun e => Nat.eqb (snd e) t) (filter f (sleepers s))) <= length (entries s t))%nat.
Proof.
  intros s f t. unfold entries. induction (sleepers s) as [|e l IH]; auto. cbn.
  destruct (f e); cbn; destruct (Nat.eqb (snd e) t); cbn; lia.
Qed.
Lemma entries_filter_in : forall s f t e,
  In e (filter (fun e => Nat.eqb (snd e) t) (filter f (sleepers s))) -> In e (entries s t) /\ f e = true.
Proof. intros s f t e H. unfold entries. rewrite !filter_In in *. tauto. Qed.

Lemma in_entries : forall s e, In e (sleepers s) -> In e (entries s (snd e)).
Proof. intros; unfold entries; apply filter_In; split; auto. apply Nat.eqb_refl. Qed.

Lemma due_NoDup : forall s cur n, Inv s cur n -> NoDup (map snd (filter (due_entry s) (sleepers s))).
Proof.
  intros s cur n I.
  assert (L : forall t, parked (stt (ths s t)) = true -> (length (filter (fun e => Nat.eqb (snd e) t) (sleepers s)) <= 1)%nat)
    by (intros; apply (iv_park _ _ _ I t); auto).
  clear I. revert L. induction (sleepers s) as [|e l IH]; intros L; cbn; [ constructor | ].
  assert (L' : forall t, parked (stt (ths s t)) = true -> (length (filter (fun e => Nat.eqb (snd e) t) l) <= 1)%nat).
  { intros t P. specialize (L t P). cbn in L. destruct (Nat.eqb (snd e) t); cbn in L; lia. }
  destruct (due_entry s e) eqn:D; [ | auto ]. cbn. constructor; auto.
  intros H. apply in_map_iff in H as (e' & E & H). apply filter_In in H as (H & _).
  unfold due_entry in D. apply andb_true_iff in D as (D & _). specialize (L _ D). cbn in L.
  rewrite Nat.eqb_refl in L. cbn in L.
  assert (In e' (filter (fun e0 => Nat.eqb (snd e0) (snd e)) l)) by (apply filter_In; split; auto; apply Nat.eqb_eq; auto).
  destruct (filter (fun e0 => Nat.eqb (snd e0) (snd e)) l); [ destruct H0 | cbn in L; lia ].
Qed.

Lemma set_sleepers_Inv : forall s cur n f, Inv s cur n -> Inv (set_sleepers s (filter f (sleepers s))) cur n.
Proof.
  intros s cur n f I.
  assert (NIL : forall t, entries s t = [] -> entries (set_sleepers s (filter f (sleepers s))) t = []).
  { intros t H. pose proof (entries_filter_len s f t) as L. rewrite H in L.
    unfold entries, set_sleepers; cbn. destruct (filter _ (filter f (sleepers s))); auto; cbn in L; lia. }
  destruct I; constructor; cbn [set_sleepers ready ths nxt]; auto; intros.
  - destruct (iv_cur0 t H) as (A & B & C & D); auto.
  - destruct (iv_park0 t H) as (A & B & C). split; auto. split; [ | auto ].
    pose proof (entries_filter_len s f t). unfold entries, set_sleepers in *; cbn in *; lia.
  - apply entries_filter_in in H0 as (H0 & _). auto.
  - destruct (iv_lt0 t H); auto.
Qed.

Lemma wake_due_Inv : forall s cur n, Inv s cur n -> Inv (wake_due s) cur n /\ Fresh (wake_due s) /\ now (wake_due s) = now s /\
  (forall t, stt (ths s t) = Sleeping -> (stt (ths (wake_due s) t) = Sleeping /\ dl (ths (wake_due s) t) = dl (ths s t)) \/
     exists d, dl (ths s t) = Some d /\ d <= now s).
Proof.
  intros s cur n I. unfold wake_due. set (s0 := set_sleepers s (filter (keep_entry s) (sleepers s))).
  set (due := map snd (filter (due_entry s) (sleepers s))).
  assert (N : NoDup due) by (eapply due_NoDup; eauto).
  assert (P : forall t, In t due -> parked (stt (ths s t)) = true).
  { intros t H. apply in_map_iff in H as (e & <- & H). apply filter_In in H as (_ & H).
    unfold due_entry in H. apply andb_true_iff in H; tauto. }
  assert (I0 : Inv s0 cur n) by (apply set_sleepers_Inv; auto).
  split; [ apply fold_wake_Inv; auto | split; [ | split ] ].
  - intros t H. rewrite fold_wake_entries. unfold entries; unfold s0; cbn [set_sleepers sleepers].
    destruct (filter _ (filter (keep_entry s) (sleepers s))) as [|e l] eqn:E; auto. exfalso.
    assert (He : In e (filter (fun e => Nat.eqb (snd e) t) (filter (keep_entry s) (sleepers s)))) by (rewrite E; left; auto).
    apply entries_filter_in in He as (He & K). unfold keep_entry in K.
    assert (snd e = t) by (apply filter_In in He as (_ & He); apply Nat.eqb_eq; auto). subst t.
    apply andb_true_iff in K as (K1 & K2).
    destruct (in_dec Nat.eq_dec (snd e) due) as [Hd|Hd].
    + apply in_map_iff in Hd as (e' & E' & Hd). apply filter_In in Hd as (Hd & Hd').
      assert (In e' (entries s (snd e))) by (rewrite <- E'; apply in_entries; auto).
      destruct (iv_park _ _ _ I _ K1) as (_ & L & _).
      destruct (entries s (snd e)) as [|x [|y r]]; [ destruct He | | cbn in L; lia ].
      destruct He as [->|[]]. destruct H0 as [->|[]].
      unfold due_entry in Hd'. apply andb_true_iff in Hd' as (_ & Hd'). destruct (fst e'); [ | discriminate ].
      rewrite Hd' in K2; discriminate.
    + rewrite fold_wake_ths in H by auto. cbn in H. congruence.
  - rewrite fold_wake_now; auto.
  - intros t H. destruct (in_dec Nat.eq_dec t due) as [Hd|Hd].
    + right. apply in_map_iff in Hd as (e & <- & Hd). apply filter_In in Hd as (Hd & Hd').
      unfold due_entry in Hd'. apply andb_true_iff in Hd' as (_ & Hd').
      destruct (fst e) as [d|] eqn:F; [ | discriminate ]. exists d.
      pose proof (iv_dl _ _ _ I _ H e (in_entries _ _ Hd)). split; [ congruence | apply Z.leb_le; auto ].
    + left. rewrite fold_wake_ths by auto. auto.
Qed.

Lemma prune_Inv : forall s cur n, Inv s cur n -> Inv (prune s) cur n.
Proof. intros; apply Inv_iow; auto. Qed.

Lemma poll_io_Inv : forall rdy s cur n, Inv s cur n -> Fresh s ->
  Inv (poll_io s rdy) cur n /\ Fresh (poll_io s rdy) /\ now (poll_io s rdy) = now s /\
  (forall t, stt (ths s t) = Sleeping -> stt (ths (poll_io s rdy) t) = Sleeping /\ dl (ths (poll_io s rdy) t) = dl (ths s t)).
Proof.
  intros rdy s cur n. unfold poll_io. generalize (iow s) as l. intros l; revert s.
  induction l as [|e l IH]; intros s I F; cbn; [ auto | ].
  destruct (rdy (fst e) && tstate_eqb (stt (ths s (snd e))) IoWaiting) eqn:E; [ | auto ].
  apply andb_true_iff in E as (_ & E). apply tstate_eqb_eq in E.
  assert (P : parked (stt (ths s (snd e))) = true) by (rewrite E; auto).
  destruct (IH (wake s (snd e))) as (A & B & C & D).
  - apply wake_Inv; auto.
  - intros t H. rewrite wake_entries. rewrite wake_ths in H. eqd t (snd e); [ | auto ].
    apply (iv_park _ _ _ I _ P); auto.
  - split; [ auto | split; [ auto | split; [ rewrite C, wake_now; auto | ] ] ].
    intros t H. destruct (Nat.eq_dec t (snd e)) as [Q|Q]; [ subst t; congruence | ].
    assert (W : ths (wake s (snd e)) t = ths s t) by (rewrite wake_ths; destruct (Nat.eqb_spec t (snd e)); congruence).
    destruct (D t) as (D1 & D2); [ rewrite W; auto | ]. rewrite W in D2. auto.
Qed.

(** Taking the head of the queue. *)
Lemma pop_Inv : forall s n t r, Inv s None n -> ready s = t :: r -> entries s t = [] ->
  Inv (set_ready s r) (Some t) (pred n).
Proof.
  intros s n t r I E En. destruct I; rewrite E in *. inversion iv_nd0; subst.
  constructor; cbn [set_ready ready ths nxt]; auto.
  - intros u H; apply iv_rd0; right; auto.
  - intros u H. assert (t = u) by congruence; subst u. destruct (iv_rd0 t (or_introl eq_refl)) as (A & B).
    repeat split; auto; tauto.
  - intros u H0 H. destruct (iv_all0 u H0 H) as [[->|?]|?]; auto; discriminate.
  - cbn in iv_n0; lia.
  - intros u H. destruct n; [ destruct H | ]. apply iv_first0. right; auto.
Qed.

(** The running thread's own record. *)
Lemma cur_Inv : forall s n t x, Inv s (Some t) n -> stt x = Runnable -> Inv (setth s t x) (Some t) n.
Proof.
  intros s n t x I E. destruct I.
  destruct (iv_cur0 t eq_refl) as (C1 & C2 & C3 & C4).
  constructor; cbn [setth ready nxt]; auto.
  - intros u H. rewrite ths_setth. destruct (Nat.eqb_spec u t); [ subst u; contradiction | auto ].
  - intros u H. assert (t = u) by congruence; subst u. rewrite ths_setth, Nat.eqb_refl, entries_setth. auto 6.
  - intros u H0 H. rewrite ths_setth in H. eqd u t; auto.
  - intros u H. rewrite ths_setth in H; rewrite ?ths_setth. eqd u t; [ rewrite E in H; discriminate | apply iv_park0; auto ].
  - intros u H. rewrite ths_setth in H; rewrite ?ths_setth. eqd u t; [ congruence | apply iv_new0; auto ].
  - intros u H. rewrite ths_setth in H; rewrite ?ths_setth. eqd u t; [ congruence | apply iv_dl0; auto ].
  - intros u H. rewrite ths_setth. destruct (iv_lt0 u H) as (A & B). eqd u t; auto.
    exfalso; destruct C4; congruence.
  - rewrite ths_setth. destruct (Nat.eqb_spec 0 t); [ congruence | auto ].
Qed.

(** A thread dies. *)
Lemma dead_Inv : forall s n t x, Inv s (Some t) n -> stt x = Dead -> Inv (setth s t x) None n.
Proof.
  intros s n t x I E. destruct I.
  destruct (iv_cur0 t eq_refl) as (C1 & C2 & C3 & C4).
  constructor; cbn [setth ready nxt]; auto.
  - intros u H. rewrite ths_setth. destruct (Nat.eqb_spec u t); [ subst u; contradiction | auto ].
  - intros u H; discriminate.
  - intros u H0 H. rewrite ths_setth in H. eqd u t; [ destruct H; congruence | ].
    destruct (iv_all0 u H0 H); auto; congruence.
  - intros u H. rewrite ths_setth in H; rewrite ?ths_setth. eqd u t; [ rewrite E in H; discriminate | apply iv_park0; auto ].
  - intros u H. rewrite ths_setth in H; rewrite ?ths_setth. eqd u t; [ congruence | apply iv_new0; auto ].
  - intros u H. rewrite ths_setth in H; rewrite ?ths_setth. eqd u t; [ congruence | apply iv_dl0; auto ].
  - intros u H. rewrite ths_setth. destruct (iv_lt0 u H) as (A & B). eqd u t; auto.
  - rewrite ths_setth. destruct (Nat.eqb_spec 0 t); [ congruence | auto ].
Qed.

(** What a scheduler operation may do to a sleeper it has no business with. *)
Definition keeps (s s' : sch) (t : nat) : Prop :=
  stt (ths s t) = Sleeping -> stt (ths s' t) = Sleeping /\ dl (ths s' t) = dl (ths s t).

Lemma keeps_refl : forall s t, keeps s s t.
Proof. intros s t H; auto. Qed.
Lemma keeps_trans : forall a b c t, keeps a b t -> keeps b c t -> keeps a c t.
Proof. intros a b c t H1 H2 H. destruct (H1 H) as (A & B). destruct (H2 A). split; congruence. Qed.
Lemma keeps_ths : forall s s' t, ths s' t = ths s t -> keeps s s' t.
Proof. intros s s' t E H. rewrite E; auto. Qed.
Lemma keeps_core : forall s t u x, same_core x (ths s u) -> keeps s (setth s u x) t.
Proof.
  intros s t u x (A & B & C) H. rewrite ths_setth. destruct (Nat.eqb_spec t u); subst; auto. split; congruence.
Qed.
Lemma keeps_wake : forall s t u, stt (ths s u) <> Sleeping -> keeps s (wake s u) t.
Proof.
  intros s t u N H. rewrite wake_ths. destruct (Nat.eqb_spec t u); subst; [ congruence | auto ].
Qed.

Lemma joiners_Inv : forall js s cur n, Inv s cur n ->
  Inv (fold_left wake_joiner js s) cur n /\ (forall t, keeps s (fold_left wake_joiner js s) t)
  /\ now (fold_left wake_joiner js s) = now s.
Proof.
  induction js as [|j js IH]; intros s cur n I; cbn; [ split; [ auto | split; auto; intros; apply keeps_refl ] | ].
  unfold wake_joiner at 2 4 6. destruct (tstate_eqb (stt (ths s j)) Joining) eqn:E; [ | apply IH; auto ].
  apply tstate_eqb_eq in E. destruct (IH (wake s j) cur n) as (A & B & C).
  - apply wake_Inv; auto. rewrite E; auto.
  - split; auto. split; [ | rewrite C, wake_now; auto ]. intros t. eapply keeps_trans; [ | apply B ]. apply keeps_wake. congruence.
Qed.

Lemma main_set_Inv : forall s cur n q, Inv s cur n ->
  Inv (setth s 0 (let m := set_pend (ths s 0%nat) q in if parked (stt m) then set_stt m Runnable else m)) cur n.
Proof.
  intros s cur n q I. cbv zeta. destruct (parked (stt (set_pend (ths s 0%nat) q))) eqn:P.
  - cbn in P. destruct I.
    assert (N0 : ~ In 0%nat (ready s)) by (intros H; destruct (iv_rd0 _ H); congruence).
    constructor; cbn [setth ready nxt]; auto.
    + intros u H. rewrite ths_setth. destruct (Nat.eqb_spec u 0); [ congruence | auto ].
    + intros u H. destruct (iv_cur0 u H) as (A & B & C & D). rewrite ths_setth. destruct (Nat.eqb_spec u 0); [ congruence | auto ].
    + intros u H0 H. rewrite ths_setth in H. destruct (Nat.eqb_spec u 0); [ congruence | auto ].
    + intros u H. rewrite ths_setth in H; rewrite ?ths_setth. eqd u 0%nat; [ discriminate | apply iv_park0; auto ].
    + intros u H. rewrite ths_setth in H; rewrite ?ths_setth. eqd u 0%nat; [ discriminate | apply iv_new0; auto ].
    + intros u H. rewrite ths_setth in H; rewrite ?ths_setth. eqd u 0%nat; [ discriminate | apply iv_dl0; auto ].
    + intros u H. rewrite ths_setth. eqd u 0%nat; [ lia | apply iv_lt0; auto ].
  - apply Inv_core; auto. repeat split.
Qed.

Lemma finalize_Inv : forall s n t fwd, Inv s (Some t) n ->
  Inv (finalize s t fwd) None n /\ now (finalize s t fwd) = now s /\
  (forall u, (fwd <> None -> u <> 0%nat) -> keeps s (finalize s t fwd) u).
Proof.
  intros s n t fwd I. unfold finalize.
  set (s1 := setth s t (set_joiners (set_pend (set_stt (ths s t) Dead) []) [])).
  assert (I1 : Inv s1 None n) by (apply dead_Inv; auto).
  destruct (joiners_Inv (joiners (ths s t)) s1 None n I1) as (A & B & C).
  destruct (iv_cur _ _ _ I t eq_refl) as (_ & _ & _ & CS).
  assert (K1 : forall u, keeps s s1 u).
  { intros u H. unfold s1; rewrite ths_setth. destruct (Nat.eqb_spec u t); subst; auto. destruct CS; congruence. }
  destruct fwd as [c|]; cbn [forward_main].
  - split; [ apply main_set_Inv; auto | split; auto ].
    intros u Hu. eapply keeps_trans; [ apply K1 | eapply keeps_trans; [ apply B | ] ].
    intros H. rewrite ths_setth. destruct (Nat.eqb_spec u 0); auto. exfalso; apply Hu; auto; discriminate.
  - split; auto. split; auto. intros u _. eapply keeps_trans; [ apply K1 | apply B ].
Qed.

(** ** The whole state *)
Definition cur_of (c : ctl) : option nat := match c with RunGreen t _ => Some t | _ => None end.
Definition n_of (c : ctl) : nat :=
  match c with RunGreen _ (KPass n) | Loop (KPass n) => n | _ => 0 end.
Definition main_running (c : ctl) : Prop :=
  match c with RunMain | RunGreen _ (KPass _) | Loop (KPass _) => True | _ => False end.

Record SInv (st : state) : Prop := {
  si_inv : Inv (fst st) (cur_of (snd st)) (n_of (snd st));
  si_main : main_running (snd st) -> stt (ths (fst st) 0%nat) = Runnable /\ entries (fst st) 0 = [];
  si_run : forall t k, snd st = RunGreen t k -> stt (ths (fst st) t) = Runnable;
  si_ok : snd st <> Panic
}.

Lemma n_of_k : forall t k, n_of (RunGreen t k) = n_of (Loop k).
Proof. intros t [|n]; auto. Qed.

Lemma unregister_Inv : forall s t cur n, Inv s cur n -> Inv (unregister s t) cur n.
Proof. intros; apply Inv_iow; auto. Qed.

(** [dispatch] of the head of the queue. *)
Lemma finalize_main : forall s t, t <> 0%nat -> stt (ths s 0%nat) = Runnable /\ entries s 0 = [] ->
  stt (ths (finalize s t None) 0%nat) = Runnable /\ entries (finalize s t None) 0 = [].
Proof.
  intros s t H (A & B). unfold finalize; cbn [forward_main].
  set (s1 := setth s t _).
  assert (stt (ths s1 0%nat) = Runnable /\ entries s1 0 = []).
  { unfold s1; rewrite ths_setth. destruct (Nat.eqb_spec 0 t); [ congruence | auto ]. }
  clearbody s1. clear A B. revert s1 H0. induction (joiners (ths s t)) as [|j js IH]; intros s1 (A & B); cbn; auto.
  apply IH. unfold wake_joiner. destruct (tstate_eqb (stt (ths s1 j)) Joining) eqn:E; auto.
  apply tstate_eqb_eq in E. rewrite wake_entries, wake_ths. destruct (Nat.eqb_spec 0 j); [ subst; congruence | auto ].
Qed.

Lemma dispatch_SInv : forall s t r k n, Inv s None n -> ready s = t :: r -> entries s t = [] ->
  (n_of (Loop k) <= pred n)%nat ->
  (main_running (Loop k) -> stt (ths s 0%nat) = Runnable /\ entries s 0 = []) ->
  SInv (dispatch (set_ready s r) t k) /\ now (fst (dispatch (set_ready s r) t k)) = now s /\
  (forall u, keeps s (fst (dispatch (set_ready s r) t k)) u).
Proof.
  intros s t r k n I E En Hn Hm.
  pose proof (pop_Inv s n t r I E En) as I1.
  assert (I2 : Inv (set_ready s r) (Some t) (n_of (Loop k))).
  { destruct I1; constructor; auto; [ lia | ]. intros u H. apply iv_first0.
    clear - H Hn. revert Hn H. generalize (pred n) (n_of (Loop k)) (ready (set_ready s r)).
    intros a b l; revert a b; induction l as [|x l IH]; intros a b L H.
    - rewrite firstn_nil in H; destruct H.
    - destruct b; [ destruct H | ]. destruct a; [ lia | ]. cbn in *. destruct H; auto. right. eapply IH; [ | eauto ]; lia. }
  clear I1.
  destruct (iv_rd _ _ _ I t) as (T0 & TS); [ rewrite E; left; auto | ].
  unfold dispatch. set (s1 := set_ready s r) in *.
  assert (H1 : ths s1 = ths s) by reflexivity.
  destruct TS as [TS|(TS & TR)].
  - rewrite H1, TS. destruct (pend (ths s t)) as [|i q] eqn:P.
    + split; [ | split; [ reflexivity | ] ].
      * constructor; cbn [fst snd cur_of].
        -- rewrite n_of_k. apply cur_Inv; auto.
        -- intros M. rewrite ths_setth. destruct (Nat.eqb_spec 0 t); [ congruence | ].
           apply Hm. destruct k; auto.
        -- intros t' k' X. assert (t = t') by congruence; subst. rewrite ths_setth, Nat.eqb_refl; auto.
        -- discriminate.
      * intros u H. cbn [fst]. rewrite ths_setth. destruct (Nat.eqb_spec u t); subst; [ congruence | auto ].
    + assert (X : forall q', SInv (finalize (setth s1 t (set_pend (ths s t) q')) t None, Loop k) /\
                 now (finalize (setth s1 t (set_pend (ths s t) q')) t None) = now s /\
                 (forall u, keeps s (finalize (setth s1 t (set_pend (ths s t) q')) t None) u)).
      { intros q'. assert (I3 : Inv (setth s1 t (set_pend (ths s t) q')) (Some t) (n_of (Loop k))).
        { apply Inv_core; auto. repeat split. }
        destruct (finalize_Inv _ _ t None I3) as (A & B & C).
        split; [ constructor; cbn [fst snd cur_of]; auto | split; auto ].
        - intros M. apply finalize_main; auto. rewrite ths_setth. destruct (Nat.eqb_spec 0 t); [ congruence | ].
          apply Hm; auto.
        - discriminate.
        - discriminate.
        - intros u. eapply keeps_trans; [ | apply C; congruence ]. apply (keeps_core s1). repeat split. }
      destruct i; apply X.
  - rewrite H1, TS, TR.
    set (x2 := match deliver (ths s t) (blocking (ths s t)) with Some q => set_pend _ q | None => _ end).
    assert (X2 : stt x2 = Runnable) by (unfold x2; destruct (deliver _ _); auto).
    split; [ | split; [ reflexivity | ] ].
    + constructor; cbn [fst snd cur_of].
      * rewrite n_of_k. apply unregister_Inv. apply cur_Inv; auto.
      * intros M. cbn [unregister set_iow ths]. rewrite ths_setth. destruct (Nat.eqb_spec 0 t); [ congruence | ].
        apply Hm. destruct k; auto.
      * intros t' k' X. assert (t = t') by congruence; subst. cbn [unregister set_iow ths]. rewrite ths_setth, Nat.eqb_refl; auto.
      * discriminate.
    + intros u H. cbn [fst unregister set_iow ths]. rewrite ths_setth. destruct (Nat.eqb_spec u t); subst; [ congruence | auto ].
Qed.

Lemma Inv_weak : forall s cur n, Inv s cur n -> Inv s cur 0.
Proof. intros s cur n []; constructor; auto; [ lia | intros t [] ]. Qed.

Lemma main_back_SInv : forall s n b, Inv s None n -> stt (ths s 0%nat) = Runnable -> entries s 0 = [] ->
  SInv (main_back s b) /\ now (fst (main_back s b)) = now s /\ forall u, keeps s (fst (main_back s b)) u.
Proof.
  intros s n b I E En. unfold main_back.
  assert (I1 : Inv (unregister s 0) None 0) by (apply unregister_Inv; eapply Inv_weak; eauto).
  destruct (deliver (ths (unregister s 0) 0%nat) b) as [q|].
  - split; [ constructor; cbn [fst snd cur_of n_of]; auto; try discriminate | split; auto ].
    + apply Inv_core; auto. repeat split.
    + intros u. apply (keeps_core (unregister s 0)). repeat split.
  - split; [ constructor; cbn [fst snd cur_of n_of]; auto; try discriminate | split; auto ].
    intros u. apply keeps_ths; reflexivity.
Qed.

Lemma loop_SInv : forall s k rdy, SInv (s, Loop k) ->
  SInv (loop_step s k rdy) /\ now (fst (loop_step s k rdy)) = now s /\
  forall u, keeps s (fst (loop_step s k rdy)) u \/ (stt (ths s u) = Sleeping -> exists d, dl (ths s u) = Some d /\ d <= now s).
Proof.
  intros s k rdy S. pose proof (si_inv _ S) as I; cbn [fst snd cur_of] in I.
  destruct k as [|[|n]]; unfold loop_step.
  - cbn [n_of] in I. destruct (wake_due_Inv _ _ _ I) as (I1 & F1 & N1 & K1).
    pose proof (prune_Inv _ _ _ I1) as I2.
    assert (F2 : Fresh (prune (wake_due s))) by exact F1.
    destruct (poll_io_Inv rdy _ _ _ I2 F2) as (I3 & F3 & N3 & K3).
    set (s2 := poll_io (prune (wake_due s)) rdy) in *.
    assert (K : forall u, keeps s s2 u \/ (stt (ths s u) = Sleeping -> exists d, dl (ths s u) = Some d /\ d <= now s)).
    { intros u. destruct (tstate_eqb (stt (ths s u)) Sleeping) eqn:E.
      - apply tstate_eqb_eq in E. destruct (K1 u E) as [(A & B)|?]; [ | auto ]. left. intros _.
        destruct (K3 u) as (C & D); [ exact A | ]. split; auto. rewrite D. exact B.
      - left. intros H. rewrite H in E; discriminate. }
    assert (N : now s2 = now s) by (rewrite N3; exact N1).
    assert (KK : forall st' : state, (forall u, keeps s2 (fst st') u) -> forall u, keeps s (fst st') u \/
              (stt (ths s u) = Sleeping -> exists d, dl (ths s u) = Some d /\ d <= now s)).
    { intros st' H u. destruct (K u); auto. left. eapply keeps_trans; eauto. }
    destruct (tstate_eqb (stt (ths s2 0%nat)) Runnable) eqn:M.
    + apply tstate_eqb_eq in M.
      destruct (main_back_SInv s2 0 true I3 M) as (A & B & C); [ apply F3; rewrite M; auto | ].
      split; auto. split; [ congruence | apply KK; auto ].
    + destruct (ready s2) as [|t r] eqn:R.
      * assert (I4 : Inv (prune s2) None 0) by (apply prune_Inv; auto).
        assert (SI : forall c, c = Loop KRun \/ c = Deadlock -> SInv (prune s2, c)).
        { intros c [-> | ->]; constructor; cbn [fst snd]; auto; try discriminate; intros []. }
        destruct (iow (prune s2)); [ destruct (has_deadline (prune s2)) | ];
          (split; [ apply SI; auto | split; [ exact N | apply KK; intros u; apply keeps_ths; reflexivity ] ]).
      * destruct (dispatch_SInv s2 t r KRun 0 I3 R) as (A & B & C); auto.
        { apply F3. destruct (iv_rd _ _ _ I3 t) as (_ & [E|(E & _)]); [ rewrite R; left; auto | | ]; rewrite E; auto. }
        { cbn. intros []. }
        split; auto. split; [ congruence | apply KK; auto ].
  - destruct (si_main _ S Logic.I) as (M1 & M2).
    destruct (main_back_SInv s 0 false I M1 M2) as (A & B & C). split; auto.
  - destruct (si_main _ S Logic.I) as (M1 & M2). cbn [n_of] in I.
    destruct (ready s) as [|t r] eqn:R.
    + destruct (main_back_SInv s (Datatypes.S n) false I M1 M2) as (A & B & C). split; auto.
    + destruct (dispatch_SInv s t r (KPass n) (Datatypes.S n) I R) as (A & B & C); auto.
      apply (iv_first _ _ _ I). rewrite R; left; auto.
Qed.

(** ** Scheduler calls *)

Definition self_ok (s : sch) (c : nat) (k : loopk) (self : ctl) : Prop :=
  running self = Some (c, k) /\ SInv (s, self).

Lemma self_stt : forall s c k self, self_ok s c k self -> stt (ths s c) = Runnable /\ entries s c = [] /\
  (self = RunMain /\ c = 0%nat /\ k = KRun \/ self = RunGreen c k /\ c <> 0%nat).
Proof.
  intros s c k self (R & S). destruct self; try discriminate; cbn in R.
  - assert (c = 0%nat) by congruence. assert (k = KRun) by congruence. subst.
    destruct (si_main _ S Logic.I); auto 6.
  - assert (t = c) by congruence. assert (k0 = k) by congruence. subst.
    pose proof (si_run _ S c k eq_refl). destruct (iv_cur _ _ _ (si_inv _ S) c eq_refl) as (A & _ & B & _). auto 6.
Qed.

(** A call that leaves the caller running, touching only bookkeeping of [t]. *)
Lemma stay_SInv : forall s self s', SInv (s, self) ->
  Inv s' (cur_of self) (n_of self) ->
  (main_running self -> stt (ths s' 0%nat) = Runnable /\ entries s' 0 = []) ->
  (forall t k, self = RunGreen t k -> stt (ths s' t) = Runnable) -> SInv (s', self).
Proof. intros s self s' S A B C. constructor; cbn; auto. apply (si_ok _ S). Qed.

Lemma core_SInv : forall s self t x, SInv (s, self) -> same_core x (ths s t) -> SInv (setth s t x, self).
Proof.
  intros s self t x S (A & B & C). eapply stay_SInv; eauto.
  - apply Inv_core; [ apply (si_inv _ S) | split; auto ].
  - intros M. destruct (si_main _ S M) as (M1 & M2). cbn [fst] in *. rewrite ths_setth. split; auto.
    destruct (Nat.eqb_spec 0 t); subst; auto; congruence.
  - intros u k E. pose proof (si_run _ S u k E). cbn [fst] in *. rewrite ths_setth. destruct (Nat.eqb_spec u t); subst; auto; congruence.
Qed.

Lemma wake_SInv : forall s self t, SInv (s, self) -> parked (stt (ths s t)) = true -> SInv (wake s t, self).
Proof.
  intros s self t S P. eapply stay_SInv; eauto.
  - apply wake_Inv; auto. apply (si_inv _ S).
  - intros M. destruct (si_main _ S M) as (M1 & M2). cbn [fst] in *. rewrite wake_ths, wake_entries.
    destruct (Nat.eqb_spec 0 t); subst; auto.
  - intros u k E. pose proof (si_run _ S u k E). cbn [fst] in *. rewrite wake_ths. destruct (Nat.eqb_spec u t); subst; auto.
Qed.

(** Parking. *)
Lemma park_Inv : forall s c k self x es, self_ok s c k self ->
  parked (stt x) = true ->
  (es = [] \/ exists d, es = [(d, c)] /\ stt x <> IoWaiting /\ (stt x = Sleeping -> d = dl x)) ->
  let s1 := set_sleepers (setth s c (if Nat.eqb c 0 then x else set_resume x true)) (sleepers s ++ es) in
  SInv (s1, Loop (if Nat.eqb c 0 then KRun else k)).
Proof.
  intros s c k self x es SO P ES s1. destruct (self_stt _ _ _ _ SO) as (C1 & C2 & C3). destruct SO as (_ & S).
  pose proof (si_inv _ S) as I; cbn [fst snd] in I.
  set (x' := if Nat.eqb c 0 then x else set_resume x true) in *.
  assert (SX : stt x' = stt x /\ dl x' = dl x /\ (c <> 0%nat -> resume x' = true)).
  { unfold x'; destruct (Nat.eqb_spec c 0); subst; repeat split; auto; try congruence. }
  destruct SX as (SX1 & SX2 & SX3).
  assert (EO : forall t, t <> c -> entries s1 t = entries s t).
  { intros t H. unfold entries, s1; cbn. rewrite filter_app.
    assert (filter (fun e => Nat.eqb (snd e) t) es = []) as ->.
    { destruct ES as [->|(d & -> & _)]; auto. cbn. destruct (Nat.eqb_spec c t); congruence. }
    apply app_nil_r. }
  assert (EC : entries s1 c = es).
  { unfold entries, s1; cbn. rewrite filter_app. unfold entries in C2. rewrite C2; cbn.
    destruct ES as [->|(d & -> & _)]; auto. cbn. rewrite Nat.eqb_refl; auto. }
  assert (TH : forall u, ths s1 u = if Nat.eqb u c then x' else ths s u) by reflexivity.
  assert (NR : ~ In c (ready s)).
  { destruct C3 as [(-> & -> & _)|(-> & ?)].
    - intros H. destruct (iv_rd _ _ _ I _ H); congruence.
    - apply (iv_cur _ _ _ I c eq_refl). }
  assert (R : ready s1 = ready s) by reflexivity.
  assert (NX : nxt s1 = nxt s) by reflexivity.
  clearbody s1.
  assert (I' : Inv s1 None (n_of self)).
  { destruct I. constructor; rewrite ?R, ?NX; auto.
    - intros u H. rewrite TH. destruct (Nat.eqb_spec u c); [ congruence | auto ].
    - intros u H; discriminate.
    - intros u H0 H. rewrite TH in H. destruct (Nat.eqb_spec u c).
      + rewrite SX1 in H. destruct H as [H|H]; rewrite H in P; discriminate.
      + destruct (iv_all0 u H0 H) as [?|X]; auto.
        destruct C3 as [(-> & _)|(-> & _)]; cbn in X; [ discriminate | congruence ].
    - intros u H. rewrite TH in H; rewrite ?TH. eqd u c.
      + rewrite EC. split; auto. split; [ destruct ES as [->|(d & -> & _)]; cbn; lia | ].
        intros X. rewrite SX1 in X. destruct ES as [->|(d & -> & Y & _)]; auto; congruence.
      + rewrite EO by auto. apply iv_park0; auto.
    - intros u H. rewrite TH in H. eqd u c.
      + rewrite SX1 in H. rewrite H in P; discriminate.
      + rewrite EO by auto. apply iv_new0; auto.
    - intros u H. rewrite TH in H; rewrite ?TH. eqd u c.
      + rewrite EC. rewrite SX1 in H. intros e He. destruct ES as [->|(d & -> & _ & Y)]; [ destruct He | ].
        destruct He as [<-|[]]. cbn. rewrite SX2; auto.
      + rewrite EO by auto. apply iv_dl0; auto.
    - intros u H. rewrite TH. destruct (iv_lt0 u H) as (A & B).
      eqd u c; [ congruence | ]. rewrite EO; auto.
    - rewrite TH. destruct (Nat.eqb_spec 0 c) as [<-|]; [ right; congruence | auto ].
    - intros u H. rewrite EO; [ auto | ]. intros ->. apply NR. 
      clear - H. revert H. generalize (n_of self). generalize (ready s). induction l as [|a l IH]; intros [|m] H; cbn in H; auto; try contradiction.
      destruct H; [ left; auto | right; eapply IH; eauto ]. }
  constructor; cbn [fst snd cur_of]; auto; try discriminate.
  - destruct C3 as [(-> & -> & _)|(-> & H0)]; [ exact I' | ].
    destruct (Nat.eqb_spec c 0); [ congruence | ]. rewrite n_of_k in I'; auto.
  - intros M. destruct C3 as [(-> & -> & _)|(-> & H0)]; [ destruct M | ].
    destruct (Nat.eqb_spec c 0); [ congruence | ].
    destruct (si_main _ S) as (M1 & M2); [ cbn; destruct k; auto | ]. cbn [fst] in *.
    rewrite TH. destruct (Nat.eqb_spec 0 c); [ congruence | ]. rewrite EO by auto. auto.
Qed.

Lemma green_pass_SInv : forall s c k, self_ok s c k (RunGreen c k) ->
  SInv (setth (push_ready s c) c (set_resume (ths s c) true), Loop k).
Proof.
  intros s c k SO. destruct (self_stt _ _ _ _ SO) as (C1 & C2 & C3). destruct SO as (_ & S).
  destruct C3 as [(X & _)|(_ & C0)]; [ discriminate | ].
  pose proof (si_inv _ S) as I; cbn [fst snd cur_of] in I. rewrite n_of_k in I.
  destruct (iv_cur _ _ _ I c eq_refl) as (_ & NR & _ & _).
  set (s1 := setth (push_ready s c) c (set_resume (ths s c) true)).
  assert (TH : forall u, ths s1 u = if Nat.eqb u c then set_resume (ths s c) true else ths s u) by reflexivity.
  assert (TS : forall u, stt (ths s1 u) = stt (ths s u) /\ dl (ths s1 u) = dl (ths s u)).
  { intros u; rewrite TH. destruct (Nat.eqb_spec u c); subst; auto. }
  assert (R : ready s1 = ready s ++ [c]) by reflexivity.
  assert (NX : nxt s1 = nxt s) by reflexivity.
  assert (EN : forall u, entries s1 u = entries s u) by reflexivity.
  clearbody s1.
  constructor; cbn [fst snd cur_of]; try discriminate.
  - destruct I; constructor; rewrite ?R, ?NX; auto.
    + apply NoDup_snoc; auto.
    + intros u H. apply in_app_iff in H as [H|[<-|[]]].
      * rewrite TH. destruct (Nat.eqb_spec u c); [ subst; contradiction | auto ].
      * split; auto. right. destruct (TS c) as (-> & _). split; auto. rewrite TH, Nat.eqb_refl; auto.
    + discriminate.
    + intros u H0 H. destruct (TS u) as (E & _). rewrite E in H. destruct (iv_all0 u H0 H) as [?|Q].
      * left; apply in_app_iff; auto.
      * left; apply in_app_iff. right; left; congruence.
    + intros u H. destruct (TS u) as (E & _). rewrite E in *. rewrite EN. destruct (iv_park0 u H) as (A & B).
      split; auto. intros H0. rewrite TH. destruct (Nat.eqb u c); auto.
    + intros u H. destruct (TS u) as (E & _). rewrite E in H. rewrite EN; auto.
    + intros u H. destruct (TS u) as (E & ->). rewrite E in H. rewrite EN; auto.
    + intros u H. destruct (TS u) as (-> & _). rewrite EN; auto.
    + destruct (TS 0%nat) as (-> & _); auto.
    + rewrite app_length; lia.
    + intros u H. rewrite EN. rewrite firstn_app_le in H; auto.
  - intros M. destruct (TS 0%nat) as (-> & _). rewrite EN. apply (si_main _ S). destruct k; auto.
Qed.

Lemma spawn_SInv : forall s self, SInv (s, self) ->
  SInv (Sch (upd (ths s) (nxt s) new_thr) (S (nxt s)) (ready s ++ [nxt s]) (sleepers s) (iow s) (now s), self).
Proof.
  intros s self S. pose proof (si_inv _ S) as I; cbn [fst snd] in I.
  destruct (iv_lt _ _ _ I (nxt s) (le_n _)) as (ND & NE).
  assert (NR : ~ In (nxt s) (ready s)).
  { intros H. destruct (iv_rd _ _ _ I _ H) as (_ & [X|(X & _)]); congruence. }
  set (s1 := Sch _ _ _ _ _ _).
  assert (TH : forall u, ths s1 u = if Nat.eqb u (nxt s) then new_thr else ths s u) by reflexivity.
  assert (EN : forall u, entries s1 u = entries s u) by reflexivity.
  assert (R : ready s1 = ready s ++ [nxt s]) by reflexivity.
  assert (NX : nxt s1 = Datatypes.S (nxt s)) by reflexivity.
  clearbody s1.
  constructor; cbn [fst snd]; try discriminate.
  - destruct I; constructor; rewrite ?R, ?NX; auto.
    + apply NoDup_snoc; auto.
    + intros u H. rewrite TH. destruct (Nat.eqb_spec u (nxt s)).
      * split; [ lia | auto ].
      * apply iv_rd0. apply in_app_iff in H as [H|[H|[]]]; auto; congruence.
    + intros u H. destruct (iv_cur0 u H) as (A & B & C & D). rewrite TH, EN.
      destruct (Nat.eqb_spec u (nxt s)); [ subst; destruct D; congruence | ].
      repeat split; auto. rewrite in_app_iff; intros [?|[?|[]]]; auto.
    + intros u H0 H. rewrite TH in H. rewrite in_app_iff. destruct (Nat.eqb_spec u (nxt s)).
      * left; right; left; auto.
      * destruct (iv_all0 u H0 H); auto.
    + intros u H. rewrite TH in H; rewrite TH, EN. destruct (Nat.eqb_spec u (nxt s)); [ discriminate | auto ].
    + intros u H. rewrite TH in H; rewrite EN. destruct (Nat.eqb_spec u (nxt s)); [ subst; auto | auto ].
    + intros u H. rewrite TH in H; rewrite TH, EN. destruct (Nat.eqb_spec u (nxt s)); [ discriminate | auto ].
    + intros u H. rewrite TH, EN. destruct (Nat.eqb_spec u (nxt s)); [ lia | apply iv_lt0; lia ].
    + rewrite TH. destruct (Nat.eqb_spec 0 (nxt s)); [ lia | auto ].
    + rewrite app_length; lia.
    + intros u H. rewrite EN. rewrite firstn_app_le in H; auto.
  - intros M. destruct (si_main _ S M) as (A & B); cbn [fst] in *. rewrite TH, EN.
    destruct (Nat.eqb_spec 0 (nxt s)) as [Q|Q]; [ pose proof (iv_nxt _ _ _ I); lia | auto ].
  - intros t k E. pose proof (si_run _ S t k E) as X; cbn [fst] in X. rewrite TH.
    destruct (Nat.eqb_spec t (nxt s)); [ subst; congruence | auto ].
  - apply (si_ok _ S).
Qed.

Lemma wakeup_SInv : forall s self t p, SInv (s, self) -> SInv (wakeup_inner s t p, self).
Proof.
  intros s self t p S. unfold wakeup_inner. destruct (stt (ths s t)) eqn:E; auto.
  - destruct p; auto. apply core_SInv; auto. repeat split.
  - apply wake_SInv; auto. rewrite E; auto.
Qed.

Lemma interrupt_SInv : forall s self t i, SInv (s, self) -> SInv (interrupt s t i, self).
Proof.
  intros s self t i S. unfold interrupt.
  set (s1 := setth s t (set_pend (ths s t) (pend (ths s t) ++ [i]))).
  assert (S1 : SInv (s1, self)) by (apply core_SInv; auto; repeat split).
  assert (X : SInv (if wake_worthy (ths s1 t) && parked (stt (ths s1 t)) then wake s1 t else s1, self)).
  { destruct (wake_worthy (ths s1 t) && parked (stt (ths s1 t))) eqn:E; auto.
    apply andb_true_iff in E as (_ & E). apply wake_SInv; auto. }
  destruct (stt (ths s t)); auto.
Qed.

Lemma term_SInv : forall l s self, SInv (s, self) -> SInv (fold_left term_one l s, self).
Proof.
  induction l as [|t l IH]; intros s self S; auto. cbn. apply IH. unfold term_one.
  set (s1 := setth s t (set_pend (ths s t) (pend (ths s t) ++ [Kill]))).
  assert (S1 : SInv (s1, self)) by (apply core_SInv; auto; repeat split).
  assert (X : SInv (if parked (stt (ths s t)) then wake s1 t else s1, self)).
  { destruct (parked (stt (ths s t))) eqn:E; auto. apply wake_SInv; auto. unfold s1. rewrite ths_setth, Nat.eqb_refl; auto. }
  destruct (stt (ths s t)); auto.
Qed.

Lemma same_core_refl : forall x, same_core x x.
Proof. repeat split. Qed.

(** What one step does to a sleeper. *)
Definition step_sleep (s : sch) (l : label) (s' : sch) : Prop :=
  forall u, stt (ths s u) = Sleeping ->
    (stt (ths s' u) = Sleeping /\ dl (ths s' u) = dl (ths s u)) \/ wakes l u \/
    exists d, dl (ths s u) = Some d /\ d <= now s.

Lemma step_keeps : forall s l s', (forall u, keeps s s' u) -> step_sleep s l s'.
Proof. intros s l s' K u H. left. apply K; auto. Qed.

Lemma SInv_ext : forall s s' c, SInv (s, c) -> (forall u, ths s' u = ths s u) -> nxt s' = nxt s ->
  ready s' = ready s -> sleepers s' = sleepers s -> SInv (s', c).
Proof.
  intros s s' c S T1 T2 T3 T4.
  assert (EN : forall u, entries s' u = entries s u) by (intros; unfold entries; rewrite T4; auto).
  destruct S as [SI SM SR SK]; cbn [fst snd] in *. constructor; cbn [fst snd]; auto.
  - destruct SI. constructor; rewrite ?T2, ?T3, ?T1; auto; intros; rewrite ?T1, ?EN in *; auto.
  - rewrite T1, EN; auto.
  - intros t k E. rewrite T1; eauto.
Qed.

Lemma park_step : forall s c k self x es l, self_ok s c k self ->
  parked (stt x) = true ->
  (es = [] \/ exists d, es = [(d, c)] /\ stt x <> IoWaiting /\ (stt x = Sleeping -> d = dl x)) ->
  forall s1, (forall u, ths s1 u = ths (setth s c x) u) -> nxt s1 = nxt s -> ready s1 = ready s -> 
  sleepers s1 = sleepers s ++ es ->
  SInv (park s1 c k) /\ step_sleep s l (fst (park s1 c k)).
Proof.
  intros s c k self x es l SO P ES s1 T1 T2 T3 T5.
  pose proof (park_Inv s c k self x es SO P ES) as S; cbv zeta in S.
  destruct (self_stt _ _ _ _ SO) as (C1 & _).
  unfold park. destruct (Nat.eqb_spec c 0) as [Hc|Hc].
  - split.
    + eapply SInv_ext; [ exact S | | auto.. ]. exact T1.
    + apply step_keeps. intros u H. cbn [fst]. rewrite T1, ths_setth.
      destruct (Nat.eqb_spec u c); [ subst; congruence | auto ].
  - assert (TX : forall u, ths (setth s1 c (set_resume (ths s1 c) true)) u =
                 ths (setth s c (set_resume x true)) u).
    { intros u. rewrite !ths_setth, !T1, !ths_setth, Nat.eqb_refl. destruct (Nat.eqb u c); auto. }
    split.
    + eapply SInv_ext; [ exact S | | auto.. ]. exact TX.
    + apply step_keeps. intros u H. cbn [fst]. rewrite TX, ths_setth.
      destruct (Nat.eqb_spec u c); [ subst; congruence | auto ].
Qed.

Lemma deliver_step : forall s self c k q l, self_ok s c k self ->
  SInv (setth s c (set_pend (ths s c) q), self) /\ step_sleep s l (setth s c (set_pend (ths s c) q)).
Proof.
  intros s self c k q l (_ & S). split; [ apply core_SInv; auto; repeat split | ].
  apply step_keeps. intros u. apply keeps_core. repeat split.
Qed.

Lemma self_core : forall s self c k x, self_ok s c k self -> same_core x (ths s c) -> self_ok (setth s c x) c k self.
Proof. intros s self c k x (R & S) E. split; auto. apply core_SInv; auto. Qed.

Lemma call_SInv : forall s c k self l st', self_ok s c k self -> plain l -> call s c k self l = Some st' ->
  SInv st' /\ step_sleep s l (fst st').
Proof.
  intros s c k self l st' SO PL E. destruct (self_stt _ _ _ _ SO) as (C1 & C2 & C3).
  pose proof SO as (_ & S).
  destruct l; unfold call in E.
  - (* spawn *)
    match type of E with Some ?y = _ => assert (st' = y) as -> by congruence end.
    split; [ apply spawn_SInv; auto | ]. apply step_keeps. intros u H. cbn.
    destruct (iv_lt _ _ _ (si_inv _ S) (nxt s) (le_n _)) as (ND & _). cbn in ND.
    unfold upd. destruct (Nat.eqb_spec u (nxt s)); [ subst; congruence | auto ].
  - (* wakeup *)
    assert (st' = (wakeup_inner s t p, self)) as -> by congruence.
    split; [ apply wakeup_SInv; auto | ]. intros u H. cbn [fst wakes].
    destruct (Nat.eq_dec t u); auto. left. unfold wakeup_inner.
    destruct (stt (ths s t)); auto; [ destruct p; auto; rewrite ths_setth | rewrite wake_ths ];
      (destruct (Nat.eqb_spec u t); [ congruence | auto ]).
  - (* interrupt *)
    destruct (Nat.eqb_spec t c) as [->|Hne].
    + match type of E with Some ?y = _ => assert (st' = y) as -> by congruence end.
      match goal with |- SInv (setth s c ?x, self) /\ _ => assert (SC : same_core x (ths s c)) end.
      { destruct (deliver _ _); repeat split. }
      split; [ apply core_SInv; auto | ]. apply step_keeps; intros u. apply keeps_core; auto.
    + assert (st' = (interrupt s t i, self)) as -> by congruence.
      split; [ apply interrupt_SInv; auto | ]. intros u H. cbn [fst wakes].
      destruct (Nat.eq_dec t u); auto. left. unfold interrupt.
      assert (X : forall (b : bool) s1, s1 = setth s t (set_pend (ths s t) (pend (ths s t) ++ [i])) ->
                ths (if b then wake s1 t else s1) u = ths s u).
      { intros b s1 ->. destruct b; rewrite ?wake_ths, ?ths_setth; destruct (Nat.eqb_spec u t); congruence. }
      destruct (stt (ths s t)); rewrite ?X by reflexivity; auto.
  - (* mask *)
    match type of E with Some ?y = _ => assert (st' = y) as -> by congruence end.
    split; [ apply core_SInv; auto; repeat split | ]. apply step_keeps; intros v. apply keeps_core; repeat split.
  - (* sleep *)
    destruct (deliver (ths s c) true) as [q|].
    + assert (st' = (setth s c (set_pend (ths s c) q), self)) as -> by congruence. eapply deliver_step; eauto.
    + cbv zeta in E. destruct (permit (set_blocking (ths s c) true)).
      * match type of E with Some ?y = _ => assert (st' = y) as -> by congruence end.
        split; [ apply core_SInv; auto; repeat split | ]. apply step_keeps; intros u. apply keeps_core; repeat split.
      * match type of E with Some ?y = _ => assert (st' = y) as -> by congruence end.
        apply (park_step s c k self (set_dl (set_stt (set_blocking (ths s c) true) Sleeping) (add_deadline (now s) d))
                 [(add_deadline (now s) d, c)]); auto.
        right. eexists; split; [ reflexivity | ]. split; [ discriminate | auto ].
  - (* pass *)
    destruct (deliver (ths s c) false) as [q|].
    + assert (st' = (setth s c (set_pend (ths s c) q), self)) as -> by congruence. eapply deliver_step; eauto.
    + cbv zeta in E. set (s1 := setth s c (set_blocking (ths s c) false)) in *.
      assert (SO1 : self_ok s1 c k self) by (apply self_core; auto; repeat split).
      assert (K1 : forall u, keeps s s1 u) by (intros u; apply keeps_core; repeat split).
      destruct (self_stt _ _ _ _ SO1) as (D1 & D2 & D3). pose proof SO1 as (_ & S1).
      destruct D3 as [(-> & -> & ->)|(-> & Hc)].
      * cbn [Nat.eqb] in E. pose proof (si_inv _ S1) as I; cbn [fst snd cur_of n_of] in I.
        destruct (wake_due_Inv _ _ _ I) as (I1 & F1 & N1 & W1).
        pose proof (prune_Inv _ _ _ I1) as I2.
        assert (F2 : Fresh (prune (wake_due s1))) by exact F1.
        destruct (poll_io_Inv rdy _ _ _ I2 F2) as (I3 & F3 & N3 & W3).
        set (s2 := poll_io (prune (wake_due s1)) rdy) in *.
        assert (st' = (s2, Loop (KPass (length (ready s2))))) as -> by congruence.
        assert (M : stt (ths s2 0%nat) = Runnable).
        { assert (A : stt (ths (wake_due s1) 0%nat) = Runnable).
          { unfold wake_due. set (due := map snd _). destruct (in_dec Nat.eq_dec 0%nat due) as [Hd|Hd].
            - apply fold_wake_in; auto.
            - rewrite fold_wake_ths; auto. }
          change (stt (ths (prune (wake_due s1)) 0%nat) = Runnable) in A.
          revert A. unfold s2, poll_io. generalize (prune (wake_due s1)). intros a. generalize (iow a). intros l; revert a.
          induction l as [|e l IH]; intros a A; auto. cbn. apply IH.
          destruct (rdy (fst e) && tstate_eqb (stt (ths a (snd e))) IoWaiting) eqn:Q; auto.
          rewrite wake_ths. destruct (Nat.eqb 0 (snd e)); auto. }
        split.
        -- constructor; cbn [fst snd cur_of n_of]; auto; try discriminate.
           ++ destruct I3; constructor; auto. intros t H. rewrite firstn_all in H. apply F3.
              destruct (iv_rd0 t H) as (_ & [Q|(Q & _)]); rewrite Q; auto.
           ++ intros _. split; auto. apply F3. rewrite M; auto.
        -- intros u H. cbn [fst]. destruct (K1 u H) as (A & B). destruct (W1 u A) as [(C & D)|(d & C & D)].
           ++ left. destruct (W3 u C) as (F & G). split; auto. rewrite G. etransitivity; [ exact D | exact B ].
           ++ right; right. exists d. split; [ congruence | exact D ].
      * destruct (Nat.eqb_spec c 0); [ congruence | ].
        assert (st' = park (push_ready s1 c) c k) as -> by congruence.
        unfold park. destruct (Nat.eqb_spec c 0); [ congruence | ]. split; [ apply (green_pass_SInv s1); auto | ].
        apply step_keeps. intros u. eapply keeps_trans; [ apply K1 | ]. intros H. cbn [fst]. rewrite ths_setth.
        destruct (Nat.eqb_spec u c); [ subst; congruence | auto ].
  - (* join *)
    destruct (Nat.eqb_spec t c) as [->|Hne].
    { assert (st' = (s, self)) as -> by congruence. split; auto. apply step_keeps; intros; apply keeps_refl. }
    destruct (deliver (ths s c) true) as [q|].
    + assert (st' = (setth s c (set_pend (ths s c) q), self)) as -> by congruence. eapply deliver_step; eauto.
    + cbv zeta in E. destruct (tstate_eqb (stt (ths s t)) Dead || _).
      * match type of E with Some ?y = _ => assert (st' = y) as -> by congruence end.
        split; [ apply core_SInv; auto; repeat split | ]. apply step_keeps; intros u. apply keeps_core; repeat split.
      * match type of E with Some (park ?y c k) = _ => assert (st' = park y c k) as -> by congruence end.
        set (sj := setth s t (set_joiners (ths s t) (joiners (ths s t) ++ [c]))).
        assert (SOj : self_ok sj c k self).
        { destruct SO as (R & _). split; auto. apply core_SInv; auto; repeat split. }
        assert (Kj : forall u, keeps s sj u) by (intros u; apply keeps_core; repeat split).
        set (x := set_stt (set_blocking (ths s c) true) Joining) in *.
        set (s1 := setth s c x) in *.
        set (s2 := setth s1 t (set_joiners (ths s1 t) (joiners (ths s1 t) ++ [c]))) in *.
        set (s3 := match deadline with Some _ => _ | None => s2 end).
        assert (SW : forall u, ths s2 u = ths (setth sj c x) u).
        { intros u. unfold s2, sj, s1. rewrite !ths_setth. destruct (Nat.eqb_spec t c); [ congruence | ].
          destruct (Nat.eqb_spec u t), (Nat.eqb_spec u c); subst; auto; congruence. }
        destruct (park_step sj c k self x (match deadline with Some _ => [(deadline, c)] | None => [] end) (LJoin t deadline) SOj eq_refl) with (s1 := s3) as (A & B).
        { destruct deadline; auto. right. eexists; split; [ reflexivity | ]. split; [ discriminate | discriminate ]. }
        { intros u. rewrite <- SW. unfold s3; destruct deadline; auto. }
        { unfold s3; destruct deadline; auto. }
        { unfold s3; destruct deadline; auto. }
        { unfold s3; destruct deadline; cbn; auto. rewrite app_nil_r; auto. }
        split; auto. intros u H. destruct (Kj u H) as (F & G). destruct (B u F) as [(H1 & H2)|[H1|(d & H1 & H2)]].
        -- left; split; congruence.
        -- auto.
        -- right; right. exists d; split; [ congruence | exact H2 ].
  - (* wait_fd *)
    destruct (deliver (ths s c) true) as [q|].
    + assert (st' = (setth s c (set_pend (ths s c) q), self)) as -> by congruence. eapply deliver_step; eauto.
    + cbv zeta in E. destruct deadline as [d|]; [ destruct PL | ].
      match type of E with Some (park ?y c k) = _ => assert (st' = park y c k) as -> by congruence end.
      apply (park_step s c k self (set_stt (set_blocking (ths s c) true) IoWaiting) []); auto.
      cbn. rewrite app_nil_r; auto.
  - (* exit *)
    destruct (Nat.eqb_spec c 0); [ discriminate | ].
    destruct C3 as [(_ & ? & _)|(-> & _)]; [ congruence | ].
    assert (st' = (finalize s c fwd, Loop k)) as -> by congruence.
    pose proof (si_inv _ S) as I; cbn [fst snd cur_of] in I. rewrite n_of_k in I.
    destruct (finalize_Inv _ _ c fwd I) as (A & B & C).
    split.
    + constructor; cbn [fst snd cur_of]; auto; try discriminate.
      intros M. assert (M0 : stt (ths s 0%nat) = Runnable /\ entries s 0 = []) by (apply (si_main _ S); destruct k; auto).
      pose proof (finalize_main s c n M0) as (X & Y). destruct fwd as [e|]; auto.
      unfold finalize in *. cbn [forward_main] in *. set (sf := fold_left wake_joiner _ _) in *.
      rewrite entries_setth, ths_setth. cbn [Nat.eqb]. split; auto. cbn [set_pend stt]. rewrite X; cbn. exact X.
    + intros u H. cbn [fst]. destruct fwd as [e|].
      * destruct (Nat.eq_dec u 0); [ right; left; cbn; auto | ]. left. apply C; auto.
      * left. apply C; auto; congruence.
  - (* terminate_all *)
    destruct (Nat.eqb_spec c 0); [ | discriminate ].
    match type of E with Some ?y = _ => assert (st' = y) as -> by congruence end.
    split; [ apply term_SInv; auto | ]. intros u H. right; left; exact Logic.I.
  - destruct PL.
  - discriminate.
  - discriminate.
Qed.

Lemma exec_SInv : forall st l st', SInv st -> plain l -> exec st l = Some st' ->
  SInv st' /\ step_sleep (fst st) l (fst st').
Proof.
  intros (s, c) l st' S PL E. cbn [fst].
  assert (CALL : (match running c with Some (t, k) => call s t k c l | None => None end) = Some st' ->
                 SInv st' /\ step_sleep s l (fst st')).
  { destruct (running c) as [(t, k)|] eqn:R; [ | discriminate ]. intros H. eapply call_SInv; eauto. split; auto. }
  destruct l; auto; cbn [exec] in E.
  - destruct c; try discriminate. assert (st' = loop_step s k rdy) as -> by congruence.
    destruct (loop_SInv s k rdy S) as (A & B & C). split; auto.
    intros u H. destruct (C u) as [K|K]; [ left; apply K; auto | right; right; auto ].
  - destruct (0 <=? d); [ | discriminate ].
    match type of E with Some ?y = _ => assert (st' = y) as -> by congruence end.
    split; [ eapply SInv_ext; eauto | ]. apply step_keeps. intros u; apply keeps_ths; reflexivity.
Qed.

Lemma init_SInv : forall t0, SInv (init t0).
Proof.
  intros t0. constructor; cbn [fst snd init cur_of n_of]; try discriminate; [ | cbn; auto ].
  constructor; cbn; try solve [ discriminate | auto | lia | constructor | intros t [] ].
  - intros [|t] H; cbn; [ congruence | intros [?|?]; discriminate ].
  - intros [|t] H; cbn in H; discriminate.
  - intros [|t] H; [ lia | auto ].
Qed.

Lemma history_SInv : forall st, history plain st -> SInv st.
Proof.
  intros st H. induction H; [ apply init_SInv | ]. eapply exec_SInv; eauto.
Qed.

(** ** C27 *)
Lemma queue_sound : forall st, history plain st -> snd st <> Panic /\ queue_ok st /\ none_lost st.
Proof.
  intros st H. pose proof (history_SInv _ H) as S. pose proof (si_inv _ S) as I.
  split; [ apply (si_ok _ S) | split; [ split; [ apply I | ] | ] ].
  - intros t Ht. destruct (iv_rd _ _ _ I t Ht) as (A & B). split; auto. split; [ | unfold thread; tauto ].
    intros R. unfold runs in R. destruct (snd st) eqn:E; try contradiction. subst.
    apply (iv_cur _ _ _ I t0); auto.
  - intros t H0 Ht. destruct (iv_all _ _ _ I t H0 Ht) as [?|X]; auto. right. unfold runs, cur_of in *.
    destruct (snd st); try discriminate. congruence.
Qed.

(** ** C26 *)
Lemma sleep_ends : forall st l st' t, history plain st -> plain l -> exec st l = Some st' ->
  stt (thread st t) = Sleeping ->
  (stt (thread st' t) = Sleeping /\ dl (thread st' t) = dl (thread st t)) \/ wakes l t \/ time_up st t.
Proof.
  intros st l st' t H P E T. destruct (exec_SInv st l st' (history_SInv _ H) P E) as (_ & K). apply K; auto.
Qed.

Lemma sleep_starts : forall s c k t d st', running c = Some (t, k) -> exec (s, c) (LSleep d) = Some st' ->
  permit (ths s t) = false -> deliver (ths s t) true = None ->
  stt (thread st' t) = Sleeping /\ dl (thread st' t) = add_deadline (now s) d /\ snd st' = Loop (if Nat.eqb t 0 then KRun else k).
Proof.
  intros s c k t d st' R E P D. cbn [exec] in E. rewrite R in E. unfold call in E. rewrite D in E. cbv zeta in E.
  change (permit (set_blocking (ths s t) true)) with (permit (ths s t)) in E. rewrite P in E.
  match type of E with Some (park ?y t k) = _ => assert (st' = park y t k) as -> by congruence end.
  unfold park, thread. destruct (Nat.eqb t 0); cbn [fst snd]; cbn [set_sleepers setth ths]; rewrite !upd_same; auto.
Qed.

Lemma add_deadline_limit : forall n d, limit_of n d (add_deadline n d).
Proof.
  intros n [z|]; unfold limit_of, add_deadline; [ | discriminate ].
  destruct (Z.ltb_spec INSTANT_MAX (n + z)) as [L|L]; [ | exists z; auto ].
  intros z' Q. assert (z' = z) as -> by congruence. exact L.
Qed.
Lemma sleep_starts_limit : forall s c k t d st', running c = Some (t, k) -> exec (s, c) (LSleep d) = Some st' ->
  permit (ths s t) = false -> deliver (ths s t) true = None ->
  stt (thread st' t) = Sleeping /\ limit_of (now s) d (dl (thread st' t)) /\ snd st' = Loop (if Nat.eqb t 0 then KRun else k).
Proof.
  intros s c k t d st' R E P D. destruct (sleep_starts s c k t d st' R E P D) as (A & B & C).
  rewrite B. split; [ auto | split; [ apply add_deadline_limit | auto ] ].
Qed.

(** Time never goes back. *)
Lemma term_now : forall l s, now (fold_left term_one l s) = now s.
Proof.
  induction l as [|t l IH]; intros s; auto. cbn. rewrite IH. unfold term_one.
  destruct (stt (ths s t)) eqn:E; cbn [parked]; rewrite ?wake_now; auto.
Qed.
Lemma joiners_now : forall js s, now (fold_left wake_joiner js s) = now s.
Proof.
  induction js as [|j js IH]; intros s; auto. cbn. rewrite IH. unfold wake_joiner.
  destruct (tstate_eqb _ _); rewrite ?wake_now; auto.
Qed.
Lemma finalize_now : forall s t f, now (finalize s t f) = now s.
Proof. intros s t [c|]; unfold finalize, forward_main; cbn [setth now]; rewrite joiners_now; auto. Qed.
Lemma poll_now : forall rdy s, now (poll_io s rdy) = now s.
Proof.
  intros rdy s. unfold poll_io. generalize (iow s) as l. intros l; revert s. induction l as [|e l IH]; intros s; auto.
  cbn. rewrite IH. destruct (_ && _); rewrite ?wake_now; auto.
Qed.
Lemma wake_due_now : forall s, now (wake_due s) = now s.
Proof. intros; unfold wake_due; rewrite fold_wake_now; auto. Qed.
Lemma dispatch_now : forall s t k, now (fst (dispatch s t k)) = now s.
Proof.
  intros s t k. unfold dispatch.
  destruct (stt (ths s t)); destruct (resume (ths s t)); destruct (pend (ths s t)) as [|[|] ?];
    cbn [fst]; rewrite ?finalize_now; reflexivity.
Qed.
Lemma main_back_now : forall s b, now (fst (main_back s b)) = now s.
Proof. intros s b; unfold main_back. destruct (deliver _ _); auto. Qed.
Lemma park_now : forall s c k, now (fst (park s c k)) = now s.
Proof. intros s c k; unfold park. destruct (Nat.eqb c 0); auto. Qed.
Lemma loop_now : forall s k rdy, now (fst (loop_step s k rdy)) = now s.
Proof.
  intros s k rdy. unfold loop_step. destruct k as [|[|n]].
  - destruct (tstate_eqb _ _).
    + rewrite main_back_now, poll_now. apply wake_due_now.
    + destruct (ready _).
      * destruct (iow _); [ destruct (has_deadline _) | ]; cbn [fst]; change (now (prune ?x)) with (now x); rewrite poll_now; apply wake_due_now.
      * rewrite dispatch_now. cbn [set_ready now]. rewrite poll_now. apply wake_due_now.
  - apply main_back_now.
  - destruct (ready s); [ apply main_back_now | rewrite dispatch_now; auto ].
Qed.

Lemma exec_now : forall st l st', exec st l = Some st' -> now (fst st) <= now (fst st').
Proof.
  intros (s, c) l st' E. cbn [fst].
  assert (CALL : (match running c with Some (t, k) => call s t k c l | None => None end) = Some st' -> now (fst st') = now s).
  { destruct (running c) as [(t, k)|]; [ | discriminate ]. unfold call. intros H. destruct l; cbv zeta in H;
      repeat match type of H with
      | (if ?b then _ else _) = _ => destruct b
      | match ?x with Some _ => _ | None => _ end = Some _ => destruct x
      | None = _ => discriminate H
      end;
      match type of H with Some ?y = _ => assert (st' = y) as -> by congruence end;
      rewrite ?park_now; cbn [fst]; try reflexivity.
    - unfold wakeup_inner. destruct (stt _); auto; [ destruct p; auto | apply wake_now ].
    - unfold interrupt. destruct (stt _); auto; destruct (_ && _); rewrite ?wake_now; auto.
    - rewrite poll_now. change (now (prune ?x)) with (now x). rewrite wake_due_now; auto.
    - destruct deadline; auto.
    - destruct deadline; auto.
    - apply finalize_now.
    - apply term_now. }
  destruct l; try (rewrite CALL by exact E; lia); cbn [exec] in E.
  - destruct c; try discriminate. assert (st' = loop_step s k rdy) as -> by congruence. rewrite loop_now; lia.
  - destruct (Z.leb_spec 0 d); [ | discriminate ].
    match type of E with Some ?y = _ => assert (st' = y) as -> by congruence end. cbn; lia.
Qed.

Lemma exec_all_now : forall ls st st', exec_all st ls = Some st' -> now (fst st) <= now (fst st').
Proof.
  induction ls as [|l ls IH]; intros st st' E; cbn in E; [ assert (st = st') by congruence; subst; lia | ].
  destruct (exec st l) as [st1|] eqn:E1; [ | discriminate ].
  pose proof (exec_now _ _ _ E1). pose proof (IH _ _ E). lia.
Qed.

Lemma sleep_lasts : forall ls st st' t, history plain st -> Forall plain ls ->
  exec_all st ls = Some st' -> stt (thread st t) = Sleeping ->
  (forall l, In l ls -> ~ wakes l t) ->
  (forall d, dl (thread st t) = Some d -> now (fst st') < d) ->
  stt (thread st' t) = Sleeping.
Proof.
  induction ls as [|l ls IH]; intros st st' t H F E S W D; cbn in E; [ congruence | ].
  destruct (exec st l) as [st1|] eqn:E1; [ | discriminate ]. inversion F; subst.
  pose proof (exec_all_now _ _ _ E). pose proof (exec_now _ _ _ E1).
  destruct (sleep_ends st l st1 t H H2 E1 S) as [(A & B)|[A|(d & A & B)]].
  - apply (IH st1); auto.
    + econstructor; eauto.
    + intros l' Hl; apply W; right; auto.
    + rewrite B; auto.
  - exfalso; apply (W l); auto; left; auto.
  - exfalso. specialize (D d A). lia.
Qed.

(** ** Refutations *)
Definition rdy0 (f : Z) : bool := false.
Definition rdy5 (f : Z) : bool := f =? 5.

(** The queue: a thread waits on descriptor 5 with a limit, is woken by the
    descriptor, waits again with the same limit. *)
Definition dup_trace : list label :=
  [ LSpawn; LSleep (Some 100); LLoop rdy0;            (* thread 1 runs *)
    LWait [5] (Some 10); LLoop rdy5;                  (* readable: runs again *)
    LWait [5] (Some 10); LTick 10; LLoop rdy0 ].      (* both entries are due *)
Definition dup_ok (r : option state) : bool :=
  match r with
  | Some (s, RunGreen 1 KRun) =>
      match ready s with [1%nat] => tstate_eqb (stt (ths s 1%nat)) Runnable | _ => false end
  | _ => false
  end.
Lemma dup_check : dup_ok (exec_all (init 0) dup_trace) = true.
Proof. vm_compute; reflexivity. Qed.
Definition is_panic (r : option state) : bool :=
  match r with Some (_, Panic) => true | _ => false end.
Lemma dup_panics : is_panic (exec_all (init 0) (dup_trace ++ [ LExit None; LLoop rdy0 ])) = true.
Proof. vm_compute; reflexivity. Qed.

Lemma exec_all_history : forall (ok : label -> Prop) ls st st', history ok st -> Forall ok ls ->
  exec_all st ls = Some st' -> history ok st'.
Proof.
  induction ls as [|l ls IH]; intros st st' H F E; cbn in E; [ assert (st = st') by congruence; subst; auto | ].
  destruct (exec st l) eqn:E1; [ | discriminate ]. inversion F; subst. apply (IH s); auto. econstructor; eauto.
Qed.
Lemma any_all : forall ls, Forall any_label ls.
Proof. intros; apply Forall_forall; intros; exact Logic.I. Qed.

Lemma queued_while_running : exists st, history any_label st /\ runs st 1 /\ In 1%nat (ready (fst st)).
Proof.
  pose proof dup_check as E. destruct (exec_all (init 0) dup_trace) as [(s, c)|] eqn:X; [ | discriminate ].
  assert (HS : history any_label (s, c)) by (eapply exec_all_history; [ apply hist_init | apply any_all | eauto ]).
  clear X. exists (s, c). split; auto.
  unfold dup_ok in E. destruct c as [|[|[|]] [|]| | | ]; try discriminate.
  cbn [fst]. destruct (ready s) as [|[|[|]] [|]]; try discriminate. split; [ reflexivity | left; auto ].
Qed.

Lemma dead_dispatched : exists st, history any_label st /\ snd st = Panic.
Proof.
  pose proof dup_panics as E. destruct (exec_all (init 0) (dup_trace ++ _)) as [(s, c)|] eqn:X; [ | discriminate ].
  assert (HS : history any_label (s, c)) by (eapply exec_all_history; [ apply hist_init | apply any_all | eauto ]).
  clear X. exists (s, c). split; auto.
  unfold is_panic in E. destruct c; try discriminate. reflexivity.
Qed.

(** After [fork] the child's queue still holds the threads of the parent. *)
Definition fork_trace : list label := [ LSpawn; LFork; LSleep (Some 1) ].
Lemma fork_panics : is_panic (exec_all (init 0) (fork_trace ++ [ LLoop rdy0 ])) = true.
Proof. vm_compute; reflexivity. Qed.
Definition dead_head (r : option state) : bool :=
  match r with
  | Some (s, _) => match ready s with t :: _ => tstate_eqb (stt (ths s t)) Dead | [] => false end
  | None => false
  end.
Lemma fork_dead_queued : exists st t, history any_label st /\ In t (ready (fst st)) /\ stt (thread st t) = Dead.
Proof.
  assert (E : dead_head (exec_all (init 0) fork_trace) = true) by (vm_compute; reflexivity).
  destruct (exec_all (init 0) fork_trace) as [(s, c)|] eqn:X; [ | discriminate ].
  assert (HS : history any_label (s, c)) by (eapply exec_all_history; [ apply hist_init | apply any_all | eauto ]).
  clear X. cbn in E. destruct (ready s) as [|t r] eqn:R; [ discriminate | ]. exists (s, c), t. split; auto.
  cbn [fst]; rewrite R. split; [ left; auto | apply tstate_eqb_eq; auto ].
Qed.

(** Sleep: a wake-up that found the thread already awake is remembered, and the
    next [sleep] (of 100) returns at once. *)
Definition permit_trace : list label :=
  [ LSpawn; LPass rdy0; LLoop rdy0;                    (* thread 1 runs *)
    LSleep None;                                        (* Thread.stop, say in Mutex#lock *)
    LLoop rdy0;                                         (* back to main *)
    LWakeup 1 false; LWakeup 1 true;                    (* Thread#wakeup, then unlock's *)
    LPass rdy0; LLoop rdy0 ].                           (* thread 1 runs *)
Definition sleep_returns (pre : list label) (d : Z) (post : list label) (t0 : nat) : bool :=
  match exec_all (init 0) pre with
  | Some (s, RunGreen t k) =>
      Nat.eqb t t0 &&
      match exec_all (s, RunGreen t k) (LSleep (Some d) :: post) with
      | Some (s', RunGreen t' _) => Nat.eqb t' t && (now s' <? now s + d) && (now s + d <? INSTANT_MAX)
      | _ => false
      end
  | _ => false
  end.
Definition nobody_wakes (t : nat) (l : label) : bool :=
  match l with
  | LWakeup u _ | LInterrupt u _ => negb (Nat.eqb u t)
  | LTermAll => false
  | LExit (Some _) => negb (Nat.eqb t 0)
  | _ => true
  end.
Lemma nobody_wakes_ok : forall t l, nobody_wakes t l = true -> ~ wakes l t.
Proof.
  intros t l H W. destruct l; cbn in *; try contradiction; try discriminate;
    try (destruct fwd; [ | contradiction ]); subst; rewrite ?Nat.eqb_refl in H; discriminate.
Qed.
Lemma short_sleep : forall pre d post t, sleep_returns pre d post t = true ->
  forallb (nobody_wakes t) post = true ->
  exists st st', history any_label st /\ runs st t /\
    exec_all st (LSleep (Some d) :: post) = Some st' /\ runs st' t /\ now (fst st') < now (fst st) + d /\
    forall l, In l post -> ~ wakes l t.
Proof.
  intros pre d post t H F. unfold sleep_returns in H.
  destruct (exec_all (init 0) pre) as [(s, c)|] eqn:E; [ | discriminate ].
  destruct c as [|t1 k| | | ]; try discriminate. apply andb_true_iff in H as (T & H). apply Nat.eqb_eq in T; subst t1.
  destruct (exec_all (s, RunGreen t k) (LSleep (Some d) :: post)) as [(s', c')|] eqn:E'; [ | discriminate ].
  destruct c' as [|t1 k'| | | ]; try discriminate. apply andb_true_iff in H as (H & _). apply andb_true_iff in H as (T & H).
  apply Nat.eqb_eq in T; subst t1. apply Z.ltb_lt in H.
  exists (s, RunGreen t k), (s', RunGreen t k').
  split; [ eapply exec_all_history; [ apply hist_init | apply any_all | eauto ] | ].
  split; [ reflexivity | ]. split; auto. split; [ reflexivity | ]. split; auto.
  intros l Hl. apply nobody_wakes_ok. rewrite forallb_forall in F; auto.
Qed.

Lemma permit_short : sleep_returns permit_trace 100 [] 1 = true.
Proof. vm_compute; reflexivity. Qed.

(** The limit of an earlier wait on a descriptor ends a later sleep of 1000. *)
Definition stale_trace : list label :=
  [ LSpawn; LSleep (Some 5000); LLoop rdy0; LWait [5] (Some 10); LLoop rdy5 ].
Lemma stale_short : sleep_returns stale_trace 1000 [ LTick 10; LLoop rdy0 ] 1 = true.
Proof. vm_compute; reflexivity. Qed.

(** ** C50 *)
Lemma allowed_iff : forall x b i, allowed x b i = true <-> permitted x b i.
Proof.
  intros x b i. unfold allowed, int_timing, permitted. destruct (unint x); [ intuition discriminate | ].
  destruct i as [|c]; [ intuition | ]. destruct (mask x c); destruct b; intuition discriminate.
Qed.

Lemma take_first_some : forall f l q, take_first f l = Some q <->
  exists a i r, l = a ++ i :: r /\ q = a ++ r /\ f i = true /\ forall j, In j a -> f j = false.
Proof.
  intros f. induction l as [|x l IH]; intros q; cbn.
  - split; [ discriminate | intros (a & i & r & E & _); destruct a; discriminate ].
  - destruct (f x) eqn:F.
    + split.
      * intros E. assert (q = l) by congruence; subst. exists [], x, l. repeat split; auto. intros j [].
      * intros (a & i & r & E & -> & Fi & A). destruct a as [|y a]; cbn in *; [ congruence | ].
        assert (y = x) by congruence; subst. rewrite (A x) in F by auto. discriminate.
    + split.
      * intros E. destruct (take_first f l) as [q'|] eqn:T; [ | discriminate ].
        destruct (proj1 (IH q') eq_refl) as (a & i & r & -> & -> & Fi & A).
        cbn in E. assert (q = x :: a ++ r) as -> by congruence. exists (x :: a), i, r. repeat split; auto.
        intros j [<-|H]; auto.
      * intros (a & i & r & E & -> & Fi & A). destruct a as [|y a]; cbn in *; [ congruence | ].
        assert (y = x) by congruence; assert (l = a ++ i :: r) by congruence; subst.
        rewrite (proj2 (IH (a ++ r))); auto. exists a, i, r; repeat split; auto.
Qed.
Lemma take_first_none : forall f l, take_first f l = None <-> forall i, In i l -> f i = false.
Proof.
  intros f; induction l as [|x l IH]; cbn; [ intuition; contradiction | ].
  destruct (f x) eqn:F; [ split; [ discriminate | intros H; rewrite H in F by auto; discriminate ] | ].
  destruct (take_first f l); cbn.
  - split; [ discriminate | ]. intros H. destruct IH as [_ IH]. specialize (IH (fun i Hi => H i (or_intror Hi))). discriminate.
  - split; auto. intros _ i [<-|H]; auto. apply IH; auto.
Qed.

Lemma not_allowed_iff : forall x b i, allowed x b i = false <-> ~ permitted x b i.
Proof.
  intros. rewrite <- allowed_iff. destruct (allowed x b i); intuition congruence.
Qed.

Lemma deliver_exact : forall x b q, deliver x b = Some q <-> takes_oldest x b q.
Proof.
  intros x b q. unfold deliver, takes_oldest. rewrite take_first_some.
  split; intros (a & i & r & E & F & G & H); exists a, i, r; (split; [ auto | split; [ auto | split ] ]).
  - apply allowed_iff; auto.
  - intros j Hj. apply not_allowed_iff; auto.
  - apply allowed_iff; auto.
  - intros j Hj. apply not_allowed_iff; auto.
Qed.
Lemma deliver_none : forall x b, deliver x b = None <-> forall i, In i (pend x) -> ~ permitted x b i.
Proof.
  intros x b. unfold deliver. rewrite take_first_none.
  split; intros H i Hi; apply not_allowed_iff; auto.
Qed.

(** A parked target is woken exactly when some queued interrupt could be
    delivered to it there. *)
Lemma wake_worthy_iff : forall x, wake_worthy x = true <-> exists i, In i (pend x) /\ permitted x true i.
Proof.
  intros x. unfold wake_worthy. rewrite existsb_exists.
  split; intros (i & H & P); exists i; split; auto.
  - apply allowed_iff. unfold allowed. destruct (int_timing x i); auto.
  - apply allowed_iff in P. unfold allowed in P. destruct (int_timing x i); auto.
Qed.
Lemma interrupt_wakes : forall s t i, t <> 0%nat -> parked (stt (ths s t)) = true ->
  permitted (ths s t) true i -> In t (ready (interrupt s t i)).
Proof.
  intros s t i T P H. unfold interrupt.
  set (s1 := setth s t (set_pend (ths s t) (pend (ths s t) ++ [i]))).
  assert (X : ths s1 t = set_pend (ths s t) (pend (ths s t) ++ [i])) by (unfold s1; rewrite ths_setth, Nat.eqb_refl; auto).
  assert (W : wake_worthy (ths s1 t) = true).
  { apply wake_worthy_iff. exists i. rewrite X. split; [ cbn; apply in_app_iff; right; left; auto | exact H ]. }
  assert (P1 : parked (stt (ths s1 t)) = true) by (rewrite X; exact P).
  rewrite W, P1. cbn [andb].
  assert (R : In t (ready (wake s1 t))).
  { rewrite wake_ready. destruct (Nat.eqb_spec t 0); [ congruence | ]. apply in_app_iff; right; left; auto. }
  destruct (stt (ths s t)); auto. discriminate.
Qed.

Lemma mask_not_inherited : exists st st', history any_label st /\ runs st 0 /\
  exec st LSpawn = Some st' /\ mask (thread st 0) 7 = Never /\
  permitted (thread st' 1) false (Raise 7).
Proof.
  set (ls := [LMask false (fun _ => Never)]).
  destruct (exec_all (init 0) ls) as [st|] eqn:E; [ | discriminate ].
  exists st. cbn in E. match type of E with Some ?y = _ => assert (st = y) as -> by congruence end.
  eexists. split; [ | split; [ reflexivity | split; [ reflexivity | split; [ reflexivity | ] ] ] ].
  - apply (hist_step any_label (init 0) (LMask false (fun _ => Never))); [ apply hist_init | exact Logic.I | reflexivity ].
  - split; [ reflexivity | left; reflexivity ].
Qed.
