(** * Proofs for C31 *)
From Coq Require Import List Bool Arith Lia.
From Verif Require Import PoolModel PoolSpec.
Import ListNotations.

Lemma upd_same {A} (g : nat -> A) k v : upd g k v k = v.
Proof. unfold upd. now rewrite Nat.eqb_refl. Qed.
Lemma upd_other {A} (g : nat -> A) k v j : j <> k -> upd g k v j = g j.
Proof. unfold upd. destruct (Nat.eqb_spec j k); easy. Qed.

Definition tk (q : pc) : option nat :=
  match q with Out => None | Try id | Parked id | Woken id | Hit id => Some id end.
Lemma tk_wake q : tk (wake q) = tk q.
Proof. now destruct q. Qed.
Lemma tk_holds q id : holds_ticket q id <-> tk q = Some id.
Proof.
  unfold holds_ticket, waits. destruct q; cbn; split; intros H; try (intuition congruence);
    try (injection H as ->; auto); try discriminate.
Qed.

(** ** The tables *)
Lemma take_some id l r l' : take id l = (Some r, l') -> NoDup (map fst l) ->
  In (id, r) l /\ NoDup (map fst l') /\ ~ In id (map fst l') /\
  forall k v, In (k, v) l' <-> In (k, v) l /\ k <> id.
Proof.
  revert l'. induction l as [|[k v] l IH]; intros l' E N; cbn in E; [discriminate|].
  cbn in N. apply NoDup_cons_iff in N as [N1 N2]. destruct (Nat.eqb_spec k id) as [->|NE].
  - injection E as -> ->. split; [now left|]. split; [easy|]. split; [easy|].
    intros k u. split.
    + intros I. split; [now right|]. intros ->. apply N1. apply in_map_iff. now exists (id, u).
    + intros [[Q|I] D]; [congruence|easy].
  - destruct (take id l) as [o m] eqn:T. injection E as -> <-.
    destruct (IH m eq_refl N2) as (A & B & C & D). split; [now right|]. split; [|split].
    + cbn. constructor; [|easy]. intros I. apply N1. apply in_map_iff in I as ([k' u] & Q & I). cbn in Q. subst k'.
      apply D in I. apply in_map_iff. exists (k, u). easy.
    + cbn. intuition.
    + intros k' u. cbn. rewrite D. intuition congruence.
Qed.
Lemma take_none id l l' : take id l = (None, l') -> ~ In id (map fst l).
Proof.
  revert l'. induction l as [|[k v] l IH]; intros l' E; cbn in *; [easy|].
  destruct (Nat.eqb_spec k id) as [->|NE]; [discriminate|].
  destruct (take id l) as [o m] eqn:T. injection E as -> <-. intros [Q|I]; [easy|]. now apply (IH m).
Qed.
Lemma take_found id l r : NoDup (map fst l) -> In (id, r) l -> exists l', take id l = (Some r, l').
Proof.
  induction l as [|[k v] l IH]; intros N I; cbn in *; [easy|].
  apply NoDup_cons_iff in N as [N1 N2]. destruct (Nat.eqb_spec k id) as [->|NE].
  - destruct I as [Q|I]; [injection Q as ->; eauto|]. exfalso. apply N1. apply in_map_iff. now exists (id, r).
  - destruct I as [Q|I]; [congruence|]. destruct (IH N2 I) as (m & ->). eauto.
Qed.
Lemma mem_in id l : mem id l = true <-> In id l.
Proof.
  unfold mem. rewrite existsb_exists. split.
  - intros (x & I & E). apply Nat.eqb_eq in E. now subst.
  - intros I. exists id. split; [easy|apply Nat.eqb_refl].
Qed.
Lemma drop_in k id l : In k (drop id l) <-> In k l /\ k <> id.
Proof. unfold drop. rewrite filter_In. destruct (Nat.eqb_spec k id); cbn; intuition congruence. Qed.
Lemma in_fst (l : list (nat * nat)) id : In id (map fst l) <-> exists r, In (id, r) l.
Proof.
  rewrite in_map_iff. split.
  - intros ([k v] & Q & I). cbn in Q. subst k. now exists v.
  - intros (r & I). now exists (id, r).
Qed.

(** ** The invariant *)
Record inv (s : state) : Prop := {
  i_fresh : forall id, next s <= id -> work s id = WNone /\ owner s id = None /\ outcome s id = None;
  i_res : forall id r, In (id, r) (results s) -> outcome s id = Some r /\ work s id <> WRun /\ work s id <> WNone /\
            exists t, tk (thr s t) = Some id;
  i_nodup : NoDup (map fst (results s));
  i_tk : forall t id, tk (thr s t) = Some id -> owner s id = Some t /\
            ((work s id = WRun /\ ~ In id (orphans s)) \/ exists r, In (id, r) (results s));
  i_orph : forall id, In id (orphans s) -> work s id = WRun /\ forall t, tk (thr s t) <> Some id;
  i_got : forall t id r, In (t, id, r) (got s) -> owner s id = Some t /\ outcome s id = Some r /\
            work s id <> WRun /\ (forall u, tk (thr s u) <> Some id);
  i_once : NoDup (map (fun e => snd (fst e)) (got s));
  i_run : forall id, work s id = WRun <-> owner s id <> None /\ outcome s id = None;
  i_own : forall id, work s id = WRun -> In id (orphans s) \/ exists t, tk (thr s t) = Some id
}.

Lemma inv_init : inv init.
Proof. constructor; cbn; try easy; try constructor. all: intros; intuition congruence. Qed.

Lemma tk_upd s t q u : tk (upd (thr s) t q u) = if Nat.eqb u t then tk q else tk (thr s u).
Proof. unfold upd. now destruct (Nat.eqb u t). Qed.

(** Steps that leave every ticket where it is, and the tables. *)
Lemma inv_same s s' : inv s -> next s' = next s -> results s' = results s -> orphans s' = orphans s ->
  (forall id, work s id = WRun <-> work s' id = WRun) -> (forall id, work s id = WNone <-> work s' id = WNone) ->
  (forall t, tk (thr s' t) = tk (thr s t)) -> owner s' = owner s -> outcome s' = outcome s -> got s' = got s -> inv s'.
Proof.
  intros [A B C D E F G H J] Q1 Q2 Q3 Q4 Q4' Q5 Q6 Q7 Q8. constructor; rewrite ?Q1, ?Q2, ?Q3, ?Q6, ?Q7, ?Q8; auto.
  - intros id L. destruct (A id L) as (A1 & A2). split; [now apply Q4'|easy].
  - intros id r I. destruct (B id r I) as (B1 & B2 & B3 & t & B4). split; [easy|]. rewrite <- Q4, <- Q4'. split; [easy|]. split; [easy|].
    exists t. now rewrite Q5.
  - intros t id. rewrite Q5, <- Q4. apply D.
  - intros id I. destruct (E id I). rewrite <- Q4. split; [easy|]. intros t. now rewrite Q5.
  - intros t id r I. rewrite <- Q4. destruct (F t id r I) as (F1 & F2 & F3 & F4). repeat split; auto. intros u. now rewrite Q5.
  - intros id. now rewrite <- Q4.
  - intros id. rewrite <- Q4. intros W. destruct (J id W) as [?|(t & ?)]; [now left|right]. exists t. now rewrite Q5.
Qed.
Lemma uniq s t u id : inv s -> tk (thr s t) = Some id -> tk (thr s u) = Some id -> t = u.
Proof. intros I A B. apply (i_tk s I) in A as [A _]. apply (i_tk s I) in B as [B _]. congruence. Qed.

Lemma inv_step s l s' : inv s -> step s l = Some s' -> inv s'.
Proof.
  intros I E. destruct l; cbn [step] in E.
  - (* Submit *)
    destruct (cpu s) as [t|]; [|discriminate]. destruct (thr s t) eqn:TH; try discriminate. injection E as <-.
    destruct I as [A B C D E F G H J].
    destruct (A (next s) (le_n _)) as (A1 & A2 & A3).
    assert (NH : forall u, tk (thr s u) <> Some (next s)).
    { intros u Q. apply D in Q as [Q _]. congruence. }
    constructor; cbn.
    + intros id L. rewrite !upd_other by lia. apply A. lia.
    + intros id r IN. destruct (B id r IN) as (B1 & B2 & B3 & u & B4). assert (id <> next s) by congruence.
      rewrite upd_other by easy. repeat split; auto. exists u. rewrite tk_upd. destruct (Nat.eqb_spec u t) as [->|]; [|easy].
      rewrite TH in B4. discriminate.
    + exact C.
    + intros u id. rewrite tk_upd. destruct (Nat.eqb_spec u t) as [->|NE]; cbn.
      * intros Q. injection Q as <-. rewrite !upd_same. split; [easy|]. left. split; [easy|].
        intros IN. apply E in IN as [IN _]. congruence.
      * intros Q. assert (id <> next s) by (intros ->; now apply (NH u)). rewrite !upd_other by easy. apply D. exact Q.
    + intros id IN. destruct (E id IN) as [E1 E2]. assert (id <> next s) by congruence. rewrite upd_other by easy. split; [easy|].
      intros u. rewrite tk_upd. destruct (Nat.eqb_spec u t); cbn; [congruence|auto].
    + intros u id r IN. destruct (F u id r IN) as (F1 & F2 & F3 & F4). assert (id <> next s) by congruence.
      rewrite !upd_other by easy. repeat split; auto. intros v. rewrite tk_upd. destruct (Nat.eqb_spec v t); cbn; [congruence|auto].
    + exact G.
    + intros id. destruct (Nat.eq_dec id (next s)) as [->|NE]; [rewrite !upd_same|rewrite !upd_other by easy; apply H].
      split; [|easy]. intros _. split; [easy|exact A3].
    + intros id. destruct (Nat.eq_dec id (next s)) as [->|NE]; [rewrite !upd_same|rewrite !upd_other by easy].
      * intros _. right. exists t. now rewrite upd_same.
      * intros W. destruct (J id W) as [?|(u & Q)]; [now left|right]. exists u. rewrite tk_upd.
        destruct (Nat.eqb_spec u t) as [->|]; [rewrite TH in Q; discriminate|easy].
  - (* TryTake *)
    destruct (cpu s) as [t|]; [|discriminate]. destruct (thr s t) as [|id| | |] eqn:TH; try discriminate.
    destruct (take id (results s)) as [[r|] rs] eqn:TK; injection E as <-.
    + pose proof (i_nodup s I) as ND. destruct (take_some _ _ _ _ TK ND) as (T1 & T2 & T3 & T4).
      assert (TT : tk (thr s t) = Some id) by now rewrite TH.
      assert (UN := fun t u id => uniq s t u id I). destruct I as [A B C D E F G H J].
      destruct (B id r T1) as (B1 & B2 & B3 & _). destruct (D t id TT) as (D1 & _).
      constructor; cbn.
      * exact A.
      * intros k v IN. apply T4 in IN as [IN NE]. destruct (B k v IN) as (K1 & K2 & K3 & u & K4). repeat split; auto.
        exists u. rewrite tk_upd. destruct (Nat.eqb_spec u t) as [->|]; [congruence|easy].
      * exact T2.
      * intros u k. rewrite tk_upd. destruct (Nat.eqb_spec u t) as [->|NE]; [easy|]. intros Q. destruct (D u k Q) as (K1 & K2). split; [easy|].
        destruct K2 as [K2|(v & K2)]; [now left|]. right. exists v. apply T4. split; [easy|]. intros ->. apply NE. eapply UN; eauto.
      * intros k IN. destruct (E k IN). split; [easy|]. intros u. rewrite tk_upd. destruct (Nat.eqb u t); [easy|auto].
      * intros u k v IN. apply in_app_iff in IN as [IN|[Q|[]]].
        -- destruct (F u k v IN) as (F1 & F2 & F3 & F4). repeat split; auto. intros w. rewrite tk_upd. destruct (Nat.eqb w t); [easy|auto].
        -- injection Q as <- <- <-. repeat split; auto. intros w. rewrite tk_upd. destruct (Nat.eqb_spec w t) as [->|NE]; [easy|].
           intros Q. apply NE. eapply UN; eauto.
      * rewrite map_app. cbn. 
        apply NoDup_rev in G. rewrite <- rev_involutive. apply NoDup_rev. rewrite rev_app_distr. cbn. constructor; [|exact G].
        rewrite <- in_rev, in_map_iff. intros ([[u k] v] & Q & IN). cbn in Q. subst k. apply (F u id v) in IN. destruct IN as (_ & _ & _ & Z).
        now apply (Z t).
      * exact H.
      * intros k W. destruct (J k W) as [?|(u & Q)]; [now left|right]. exists u. rewrite tk_upd.
        destruct (Nat.eqb_spec u t) as [->|]; [|easy]. exfalso. destruct (B id r T1) as (_ & Z & _). congruence.
    + eapply inv_same; eauto; try reflexivity; try easy. intros u. cbn. rewrite tk_upd. destruct (Nat.eqb_spec u t) as [->|]; [now rewrite TH|easy].
  - (* Drain *)
    destruct (cpu s) as [t|]; [|discriminate]. destruct (thr s t) as [| | |id|] eqn:TH; try discriminate. injection E as <-.
    eapply inv_same; eauto; try reflexivity; try easy. intros u. cbn. rewrite tk_upd. destruct (Nat.eqb_spec u t) as [->|]; [now rewrite TH|easy].
  - (* Discard *)
    destruct (cpu s) as [t|]; [|discriminate]. destruct (thr s t) as [| | | |id] eqn:TH; try discriminate.
    assert (TT : tk (thr s t) = Some id) by now rewrite TH.
    pose proof (i_nodup s I) as ND. assert (UN := fun t u id => uniq s t u id I).
    destruct (take id (results s)) as [[r|] rs] eqn:TK; injection E as <-.
    + destruct (take_some _ _ _ _ TK ND) as (T1 & T2 & T3 & T4). destruct I as [A B C D E F G H J].
      constructor; cbn.
      * exact A.
      * intros k v IN. apply T4 in IN as [IN NE]. destruct (B k v IN) as (K1 & K2 & K3 & u & K4). repeat split; auto.
        exists u. rewrite tk_upd. destruct (Nat.eqb_spec u t) as [->|]; [congruence|easy].
      * exact T2.
      * intros u k. rewrite tk_upd. destruct (Nat.eqb_spec u t) as [->|NE]; [easy|]. intros Q. destruct (D u k Q) as (K1 & K2). split; [easy|].
        destruct K2 as [K2|(v & K2)]; [now left|]. right. exists v. apply T4. split; [easy|]. intros ->. apply NE. eapply UN; eauto.
      * intros k IN. destruct (E k IN). split; [easy|]. intros u. rewrite tk_upd. destruct (Nat.eqb u t); [easy|auto].
      * intros u k v IN. destruct (F u k v IN) as (F1 & F2 & F3 & F4). repeat split; auto. intros w. rewrite tk_upd. destruct (Nat.eqb w t); [easy|auto].
      * exact G.
      * exact H.
      * intros k W. destruct (J k W) as [?|(u & Q)]; [now left|right]. exists u. rewrite tk_upd.
        destruct (Nat.eqb_spec u t) as [->|]; [|easy]. exfalso. destruct (B id r T1) as (_ & Z & _). congruence.
    + apply take_none in TK. rewrite in_fst in TK. destruct I as [A B C D E F G H J].
      destruct (D t id TT) as (D1 & [[D2 D3]|D2]); [|easy].
      constructor; cbn.
      * exact A.
      * intros k v IN. destruct (B k v IN) as (K1 & K2 & K3 & u & K4). repeat split; auto.
        exists u. rewrite tk_upd. destruct (Nat.eqb_spec u t) as [->|]; [|easy]. exfalso. apply TK. exists v. congruence.
      * exact C.
      * intros u k. rewrite tk_upd. destruct (Nat.eqb_spec u t) as [->|NE]; [easy|]. intros Q. destruct (D u k Q) as (K1 & K2). split; [easy|].
        destruct K2 as [[K2 K3]|K2]; [left|now right]. split; [easy|]. intros [->|IN]; [|easy]. apply NE. eapply UN; eauto.
      * intros k [<-|IN].
        -- split; [easy|]. intros u. rewrite tk_upd. destruct (Nat.eqb_spec u t) as [->|NE]; [easy|]. intros Q. apply NE. eapply UN; eauto.
        -- destruct (E k IN). split; [easy|]. intros u. rewrite tk_upd. destruct (Nat.eqb u t); [easy|auto].
      * intros u k v IN. destruct (F u k v IN) as (F1 & F2 & F3 & F4). repeat split; auto. intros w. rewrite tk_upd. destruct (Nat.eqb w t); [easy|auto].
      * exact G.
      * exact H.
      * intros k W. destruct (Nat.eq_dec k id) as [->|NE]; [left; now left|].
        destruct (J k W) as [?|(u & Q)]; [left; now right|right]. exists u. rewrite tk_upd.
        destruct (Nat.eqb_spec u t) as [->|]; [|easy]. congruence.
  - (* Yield *)
    destruct (cpu s) as [t|]; [|discriminate]. destruct (thr s t) eqn:TH; try discriminate. injection E as <-.
    eapply inv_same; eauto; try reflexivity; easy.
  - (* Poll *)
    destruct (cpu s) as [t|]; [discriminate|]. injection E as <-.
    eapply inv_same; eauto; try reflexivity; try easy. intros u. cbn. destruct (pipe s); [easy|apply tk_wake].
  - (* Dispatch *)
    destruct (cpu s); [discriminate|]. destruct (polled s); [|discriminate].
    destruct (thr s t) eqn:TH; try discriminate; injection E as <-;
    (eapply inv_same; eauto; try reflexivity; try easy; intros u; cbn; rewrite tk_upd; destruct (Nat.eqb_spec u t) as [->|]; [now rewrite TH|easy]).
  - (* Interrupt *)
    destruct (cpu s); [|discriminate].
    destruct (thr s t) eqn:TH; try discriminate; injection E as <-;
    (eapply inv_same; eauto; try reflexivity; try easy; intros u; cbn; rewrite tk_upd; destruct (Nat.eqb_spec u t) as [->|]; [now rewrite TH|easy]).
  - (* Complete *)
    assert (E' : match work s id with
      | WRun => if mem id (orphans s)
          then Some (P_ (next s) (results s) (drop id (orphans s)) (pipe s) (upd (work s) id WDone) (thr s) (cpu s)
                        (polled s) (owner s) (upd (outcome s) id (Some r)) (got s))
          else Some (P_ (next s) ((id, r) :: results s) (orphans s) (pipe s) (upd (work s) id WByte) (thr s) (cpu s)
                        (polled s) (owner s) (upd (outcome s) id (Some r)) (got s))
      | _ => None end = Some s') by (destruct (cpu s); exact E). clear E.
    destruct (work s id) eqn:WK; try discriminate.
    destruct I as [A B C D E F G H J].
    assert (NR : forall v, ~ In (id, v) (results s)) by (intros v IN; apply B in IN as (_ & Z & _); congruence).
    assert (FR : id < next s).
    { destruct (le_lt_dec (next s) id) as [L|L]; [|easy]. destruct (A id L). congruence. }
    assert (OW : owner s id <> None /\ outcome s id = None) by now apply H.
    destruct (mem id (orphans s)) eqn:M; injection E' as <-.
    + apply mem_in in M. destruct (E id M) as [_ E2]. constructor; cbn.
      * intros k L. rewrite !upd_other by lia. auto.
      * intros k v IN. destruct (B k v IN) as (K1 & K2 & K3 & K4). assert (k <> id) by congruence. rewrite !upd_other by easy. auto.
      * exact C.
      * intros u k Q. destruct (D u k Q) as (K1 & K2). assert (k <> id) by (intros ->; now apply (E2 u)). rewrite upd_other by easy.
        split; [easy|]. destruct K2 as [[K2 K3]|K2]; [left|now right]. split; [easy|]. rewrite drop_in. tauto.
      * intros k IN. apply drop_in in IN as [IN NE]. rewrite upd_other by easy. auto.
      * intros u k v IN. destruct (F u k v IN) as (F1 & F2 & F3 & F4). assert (k <> id) by congruence. rewrite !upd_other by easy. auto.
      * exact G.
      * intros k. destruct (Nat.eq_dec k id) as [->|NE]; [rewrite !upd_same|rewrite !upd_other by easy; apply H]. split; [easy|]. intros [_ Q]. discriminate.
      * intros k. destruct (Nat.eq_dec k id) as [->|NE]; [now rewrite upd_same|rewrite upd_other by easy]. intros W.
        destruct (J k W) as [?|?]; [left; now apply drop_in|now right].
    + assert (M' : ~ In id (orphans s)) by (rewrite <- mem_in; congruence). constructor; cbn.
      * intros k L. rewrite !upd_other by lia. auto.
      * intros k v [Q|IN].
        -- injection Q as <- <-. rewrite !upd_same. split; [easy|]. split; [easy|]. split; [easy|].
           destruct (J id WK) as [Q|Q]; easy.
        -- destruct (B k v IN) as (K1 & K2 & K3 & K4). assert (k <> id) by congruence. rewrite !upd_other by easy. auto.
      * constructor; [|easy]. rewrite in_fst. intros (v & IN). now apply (NR v).
      * intros u k Q. destruct (D u k Q) as (K1 & K2). split; [easy|]. destruct (Nat.eq_dec k id) as [->|NE].
        -- right. exists r. now left.
        -- rewrite upd_other by easy. destruct K2 as [K2|(v & K2)]; [now left|right]. exists v. now right.
      * intros k IN. assert (k <> id) by congruence. rewrite upd_other by easy. auto.
      * intros u k v IN. destruct (F u k v IN) as (F1 & F2 & F3 & F4). assert (k <> id) by congruence. rewrite !upd_other by easy. auto.
      * exact G.
      * intros k. destruct (Nat.eq_dec k id) as [->|NE]; [rewrite !upd_same|rewrite !upd_other by easy; apply H]. split; [easy|]. intros [_ Q]. discriminate.
      * intros k. destruct (Nat.eq_dec k id) as [->|NE]; [now rewrite upd_same|rewrite upd_other by easy]. auto.
  - (* Byte *)
    assert (E' : match work s id with
      | WByte => Some (P_ (next s) (results s) (orphans s) (S (pipe s)) (upd (work s) id WDone) (thr s) (cpu s)
                          (polled s) (owner s) (outcome s) (got s))
      | _ => None end = Some s') by (destruct (cpu s); exact E). clear E.
    destruct (work s id) eqn:WK; try discriminate. injection E' as <-.
    eapply inv_same; eauto; try reflexivity; cbn; intros k; destruct (Nat.eq_dec k id) as [->|NE];
      rewrite ?upd_same, ?upd_other by easy; rewrite ?WK; easy.
Qed.

Lemma inv_history ok s : history ok s -> inv s.
Proof. intros H. induction H; eauto using inv_init, inv_step. Qed.

(** ** What follows for every history *)
Lemma own_result ok s t id r : history ok s -> In (t, id, r) (got s) -> owner s id = Some t /\ outcome s id = Some r.
Proof. intros H I. destruct (i_got s (inv_history ok s H) t id r I) as (A & B & _). easy. Qed.
Lemma once ok s : history ok s -> NoDup (map (fun e => snd (fst e)) (got s)).
Proof. intros H. exact (i_once s (inv_history ok s H)). Qed.
Lemma kept ok s t id : history ok s -> holds_ticket (thr s t) id ->
  owner s id = Some t /\ (outcome s id = None \/ exists r, outcome s id = Some r /\ In (id, r) (results s)).
Proof.
  intros H T. apply tk_holds in T. pose proof (inv_history ok s H) as I. destruct (i_tk s I t id T) as (A & [[B _]|(r & B)]).
  - split; [easy|]. left. now apply (i_run s I).
  - split; [easy|]. right. exists r. split; [|easy]. now apply (i_res s I).
Qed.
Lemma no_leak ok s : history ok s ->
  (forall id r, In (id, r) (results s) -> exists t, holds_ticket (thr s t) id) /\
  (forall id, In id (orphans s) -> outcome s id = None /\ owner s id <> None).
Proof.
  intros H. pose proof (inv_history ok s H) as I. split.
  - intros id r IN. destruct (i_res s I id r IN) as (_ & _ & _ & t & T). exists t. now apply tk_holds.
  - intros id IN. destruct (i_orph s I id IN) as (W & _). apply (i_run s I) in W. easy.
Qed.

(** ** Waking up *)
Lemma woken s t id : history clean_drain s -> thr s t = Parked id -> ready s id -> 0 < pipe s \/ work s id = WByte.
Proof.
  intros H. revert t id. induction H as [|s l s' H IH O E]; [easy|]. intros t id T (r & R).
  pose proof (inv_history _ _ H) as I. destruct l; cbn [step] in E.
  - destruct (cpu s) as [u|]; [|discriminate]. destruct (thr s u) eqn:TH; try discriminate. injection E as <-. cbn in *.
    destruct (Nat.eq_dec t u) as [->|NE]; [now rewrite upd_same in T|rewrite upd_other in T by easy].
    destruct (IH t id T) as [?|W]; [now exists r|now left|]. right. rewrite upd_other; [easy|].
    intros ->. destruct (i_fresh s I (next s) (le_n _)) as [Z _]. congruence.
  - destruct (cpu s) as [u|]; [|discriminate]. destruct (thr s u) as [|k| | |] eqn:TH; try discriminate.
    destruct (take k (results s)) as [[v|] rs] eqn:TK; injection E as <-; cbn in *.
    + destruct (Nat.eq_dec t u) as [->|NE]; [now rewrite upd_same in T|rewrite upd_other in T by easy].
      apply (IH t id T). exists r. destruct (take_some _ _ _ _ TK (i_nodup s I)) as (_ & _ & _ & Q). now apply Q.
    + destruct (Nat.eq_dec t u) as [->|NE]; [rewrite upd_same in T|rewrite upd_other in T by easy].
      * injection T as ->. apply take_none in TK. exfalso. apply TK. apply in_fst. now exists r.
      * apply (IH t id T). now exists r.
  - destruct (cpu s) as [u|] eqn:CP; [|discriminate]. destruct (thr s u) as [| | |k|] eqn:TH; try discriminate. injection E as <-. cbn in *.
    destruct (Nat.eq_dec t u) as [->|NE]; [now rewrite upd_same in T|rewrite upd_other in T by easy].
    exfalso. apply (O eq_refl t id); [congruence|easy|now exists r].
  - destruct (cpu s) as [u|]; [|discriminate]. destruct (thr s u) as [| | | |k] eqn:TH; try discriminate.
    destruct (take k (results s)) as [[v|] rs] eqn:TK; injection E as <-; cbn in *;
    (destruct (Nat.eq_dec t u) as [->|NE]; [now rewrite upd_same in T|rewrite upd_other in T by easy]);
    apply (IH t id T); exists r; auto. destruct (take_some _ _ _ _ TK (i_nodup s I)) as (_ & _ & _ & Q). now apply Q.
  - destruct (cpu s) as [u|]; [|discriminate]. destruct (thr s u) eqn:TH; try discriminate. injection E as <-. cbn in *.
    apply (IH t id T). now exists r.
  - destruct (cpu s) as [u|]; [discriminate|]. injection E as <-. cbn in *. destruct (pipe s); [|now left; lia].
    apply (IH t id T). now exists r.
  - destruct (cpu s) as [u|]; [discriminate|]. destruct (polled s); [|discriminate].
    destruct (thr s t0) eqn:TH; try discriminate; injection E as <-; cbn in *;
    (destruct (Nat.eq_dec t t0) as [->|NE]; [now rewrite upd_same in T|rewrite upd_other in T by easy]; apply (IH t id T); now exists r).
  - destruct (cpu s) as [u|]; [|discriminate].
    destruct (thr s t0) eqn:TH; try discriminate; injection E as <-; cbn in *;
    (destruct (Nat.eq_dec t t0) as [->|NE]; [now rewrite upd_same in T|rewrite upd_other in T by easy]; apply (IH t id T); now exists r).
  - destruct (work s id0) eqn:WK; try (destruct (cpu s); discriminate).
    destruct (mem id0 (orphans s)) eqn:M; (assert (E' : s' = s') by easy; destruct (cpu s); injection E as <-); cbn in *.
    all: try (destruct R as [Q|R]; [injection Q as -> ->; right; now rewrite upd_same|]).
    all: destruct (IH t id T) as [?|W]; [now exists r|now left|]; right; rewrite upd_other; [easy|congruence].
  - destruct (work s id0) eqn:WK; try (destruct (cpu s); discriminate).
    destruct (cpu s); injection E as <-; cbn; left; lia.
Qed.

(** With a byte in the pipe, the scheduler's next turn wakes the thread, and its next run
    returns its result. *)
Lemma delivered ok s t id r : history ok s -> cpu s = None -> thr s t = Parked id -> In (id, r) (results s) -> 0 < pipe s ->
  exists s', steps s [Poll; Dispatch t; Drain; TryTake] = Some s' /\ got s' = got s ++ [(t, id, r)] /\ thr s' t = Out /\ cpu s' = Some t.
Proof.
  intros H C T R P. pose proof (inv_history ok s H) as I. destruct (take_found id (results s) r (i_nodup s I) R) as (rs & TK).
  cbn [steps step]. rewrite C. destruct (pipe s) as [|p] eqn:PP; [lia|]. cbn [cpu polled thr]. rewrite T. cbn [wake].
  unfold set_thr. cbn [cpu thr next results orphans pipe work polled owner outcome got]. rewrite upd_same. cbn [cpu thr]. rewrite upd_same. cbn [results].
  rewrite TK. eexists. split; [reflexivity|]. cbn. rewrite upd_same. easy.
Qed.

(** ** One call at a time *)
Lemma busy_one s : history solo s -> forall t u, thr s t <> Out -> thr s u <> Out -> t = u.
Proof.
  intros H. induction H as [|s l s' H IH O E]; [easy|]. intros t u.
  assert (K : forall v q, thr s v <> Out -> (upd (thr s) v q t <> Out -> upd (thr s) v q u <> Out -> t = u)).
  { intros v q V A B. apply IH.
    - destruct (Nat.eq_dec t v) as [->|NE]; [easy|]. now rewrite upd_other in A.
    - destruct (Nat.eq_dec u v) as [->|NE]; [easy|]. now rewrite upd_other in B. }
  destruct l; cbn [step] in E.
  - destruct (cpu s) as [v|]; [|discriminate]. destruct (thr s v) eqn:TH; try discriminate. injection E as <-. cbn.
    specialize (O eq_refl). unfold upd. destruct (Nat.eqb_spec t v), (Nat.eqb_spec u v); intros A B; try congruence; exfalso; auto.
  - destruct (cpu s) as [v|]; [|discriminate]. destruct (thr s v) eqn:TH; try discriminate.
    destruct (take id (results s)) as [[w|] rs]; injection E as <-; cbn; apply K; congruence.
  - destruct (cpu s) as [v|]; [|discriminate]. destruct (thr s v) eqn:TH; try discriminate. injection E as <-; cbn; apply K; congruence.
  - destruct (cpu s) as [v|]; [|discriminate]. destruct (thr s v) eqn:TH; try discriminate.
    destruct (take id (results s)) as [[w|] rs]; injection E as <-; cbn; apply K; congruence.
  - destruct (cpu s) as [v|]; [|discriminate]. destruct (thr s v) eqn:TH; try discriminate. injection E as <-; cbn; auto.
  - destruct (cpu s) as [v|]; [discriminate|]. injection E as <-; cbn. destruct (pipe s); [auto|].
    intros A B. apply IH; [destruct (thr s t)|destruct (thr s u)]; easy.
  - destruct (cpu s) as [v|]; [discriminate|]. destruct (polled s); [|discriminate].
    destruct (thr s t0) eqn:TH; try discriminate; injection E as <-; cbn; try (apply K; congruence).
    intros A B. apply IH.
    + destruct (Nat.eq_dec t t0) as [->|NE]; [now rewrite upd_same in A|now rewrite upd_other in A].
    + destruct (Nat.eq_dec u t0) as [->|NE]; [now rewrite upd_same in B|now rewrite upd_other in B].
  - destruct (cpu s) as [v|]; [|discriminate]. destruct (thr s t0) eqn:TH; try discriminate; injection E as <-; cbn; apply K; congruence.
  - destruct (work s id); try (destruct (cpu s); discriminate). destruct (mem id (orphans s)), (cpu s); injection E as <-; cbn; auto.
  - destruct (work s id); try (destruct (cpu s); discriminate). destruct (cpu s); injection E as <-; cbn; auto.
Qed.
Lemma solo_clean s : history solo s -> history clean_drain s.
Proof.
  intros H. induction H as [|s l s' H IH O E]; [constructor|]. econstructor; [exact IH| |exact E].
  intros -> t id C T _. cbn [step] in E. destruct (cpu s) as [u|]; [|discriminate]. destruct (thr s u) eqn:TH; try discriminate.
  apply C. f_equal. apply (busy_one s H); congruence.
Qed.

(** ** The lost wake-up *)
Lemma history_steps (ok : state -> label -> Prop) ls : forall s s', history ok s ->
  (forall l s, In l ls -> ok s l) -> steps s ls = Some s' -> history ok s'.
Proof.
  induction ls as [|l ls IH]; intros s s' H O E; cbn in *; [congruence|].
  destruct (step s l) eqn:Q; [|discriminate]. eapply IH; [|intros; apply O; now right|exact E]. econstructor; eauto.
Qed.
(** Thread 1 and the main thread 0 wait for tickets 1 and 2, both are woken by the byte of
    ticket 2; main empties the pipe.  Thread 2, next in the ready queue, submits ticket 3 and
    parks.  Thread 1 is resumed for nothing; before it empties the pipe, ticket 3 completes. *)
Definition lost : list label :=
  [Poll; Dispatch 1; Submit; TryTake; Poll; Dispatch 0; Submit; TryTake; Poll; Dispatch 2;
   Complete 2 7; Byte 2; Yield;
   Poll; Dispatch 0; Drain; TryTake; Yield;
   Poll; Dispatch 2; Submit; TryTake;
   Poll; Dispatch 1; Complete 3 8; Byte 3; Drain; TryTake; Poll].
Lemma lost_wakeup : exists s, history any_step s /\ stuck s 2 3 /\ In (3, 8) (results s) /\ thr s 0 = Out /\ thr s 1 = Parked 1 /\ work s 1 = WRun.
Proof.
  destruct (steps init lost) as [s|] eqn:E; [|vm_compute in E; discriminate]. exists s. split.
  - eapply history_steps; [constructor| |exact E]. easy.
  - vm_compute in E. injection E as <-. unfold stuck. cbn. repeat split; try easy; try (now left).
    + exists 8. now left.
    + intros k. repeat (destruct k as [|k]; [easy|]). easy.
Qed.
(** Until another operation completes, nothing wakes it. *)
Lemma stuck_stays ok s t id l s' : history ok s -> stuck s t id -> step s l = Some s' ->
  (forall k r, l <> Complete k r) -> l <> Interrupt t -> stuck s' t id.
Proof.
  intros HH (T & (r & R) & P & W) E L1 L2. unfold stuck. pose proof (inv_history ok s HH) as I.
  assert (TK0 : forall v k w rs, v <> t -> tk (thr s v) = Some k -> take k (results s) = (Some w, rs) -> exists r, In (id, r) rs).
  { intros v k w rs NE V TK. exists r. destruct (take_some _ _ _ _ TK (i_nodup s I)) as (_ & _ & _ & Q). apply Q. split; [easy|].
    intros <-. apply NE. apply (uniq s v t id I); [easy|now rewrite T]. } destruct l; cbn [step] in E.
  - destruct (cpu s) as [v|]; [|discriminate]. destruct (thr s v) eqn:TH; try discriminate. injection E as <-. cbn.
    rewrite upd_other by congruence. repeat split; auto; [now exists r|]. intros k. unfold upd. destruct (Nat.eqb k (next s)); [easy|auto].
  - destruct (cpu s) as [v|]; [|discriminate]. destruct (thr s v) eqn:TH; try discriminate.
    destruct (take id0 (results s)) as [[w|] rs] eqn:TK; injection E as <-; cbn; rewrite upd_other by congruence; repeat split; auto; [|now exists r].
    apply (TK0 v id0 w rs); [congruence|now rewrite TH|easy].
  - destruct (cpu s) as [v|]; [|discriminate]. destruct (thr s v) eqn:TH; try discriminate. injection E as <-. cbn.
    rewrite upd_other by congruence. repeat split; auto. now exists r.
  - destruct (cpu s) as [v|]; [|discriminate]. destruct (thr s v) eqn:TH; try discriminate.
    destruct (take id0 (results s)) as [[w|] rs] eqn:TK; injection E as <-; cbn; rewrite upd_other by congruence; repeat split; auto; [|now exists r].
    apply (TK0 v id0 w rs); [congruence|now rewrite TH|easy].
  - destruct (cpu s) as [v|]; [|discriminate]. destruct (thr s v) eqn:TH; try discriminate. injection E as <-. cbn.
    repeat split; auto. now exists r.
  - destruct (cpu s) as [v|]; [discriminate|]. injection E as <-. cbn. rewrite P. repeat split; auto. now exists r.
  - destruct (cpu s) as [v|]; [discriminate|]. destruct (polled s); [|discriminate].
    destruct (thr s t0) eqn:TH; try discriminate; injection E as <-; cbn; rewrite upd_other by congruence; repeat split; auto; now exists r.
  - destruct (cpu s) as [v|]; [|discriminate]. assert (t <> t0) by congruence.
    destruct (thr s t0) eqn:TH; try discriminate; injection E as <-; cbn; rewrite upd_other by congruence; repeat split; auto; now exists r.
  - now destruct (L1 id0 r0).
  - specialize (W id0). destruct (work s id0) eqn:WK; try easy; destruct (cpu s); discriminate.
Qed.

(** ** The scheduler looks at the pipe before it dispatches *)
Lemma polls_first s l s' t u : step s l = Some s' -> cpu s = Some t -> cpu s' = None -> step s' (Dispatch u) = None.
Proof.
  intros E C C'. destruct s' as [n rs os p w th c po ow oc g]. cbn in C'. subst c. cbn.
  assert (P : po = false); [|rewrite P; reflexivity].
  destruct l as [| | | | | |v|v|k r|k]; unfold step in E; rewrite ?C in E; try discriminate;
    repeat match type of E with
      | match ?x with _ => _ end = _ => destruct x eqn:?; try discriminate
      | Some _ = Some _ => injection E; clear E; intros; subst; congruence
      end.
Qed.
