(** Supporting lemmas for EnsProps.v: fuel, rules for the machine, and what
    a specification run never does. *)

From Coq Require Import Arith Bool List Lia.
From Verif Require Import EnsModel EnsSpec.
Import ListNotations.

(** * Equations of the generator *)

Lemma gen_if : forall k a b c, gen (If_ k a b) c =
  obind (gens a c) (fun a => obind (gens b c) (fun b => Some [TIf k a b])).
Proof. reflexivity. Qed.

Lemma gen_while : forall r k b c, gen (While r k b) c =
  obind (gens b (Ctx (length (c_ens c) :: c_loops c) (c_ens c) (c_rty c)
                     (c_blk c)))
    (fun b => Some [TWhile (length (c_loops c)) r k b]).
Proof. reflexivity. Qed.

Definition gmine (c : ctx) (ens : option (list stmt)) :=
  option_map (fun eb lp rt => gens eb (Ctx lp (c_ens c) rt (c_blk c))) ens.

Definition gpush (c : ctx) e := Ctx (c_loops c) (e :: c_ens c) (c_rty c)
                                    (c_blk c).

Lemma gen_begin : forall body resc els ens c,
  gen (Begin body resc els ens) c =
  if some els && none_of resc then None else
  obind (gens body (gpush c (gmine c ens))) (fun tb =>
  obind (genc resc (Ctx (c_loops c) (gmine c ens :: c_ens c) (S (c_rty c))
                        (c_blk c))) (fun tr =>
  obind (gopt (fun eb => gens eb (gpush c None)) ens) (fun tc =>
  obind (gopt (fun l => gens l (gpush c (gmine c ens))) els) (fun te =>
  obind (gopt (fun eb => gens eb c) ens) (fun tn =>
  Some [TBegin (c_rty c) tb tr tc te tn]))))).
Proof. intros. destruct els, resc, ens; reflexivity. Qed.

Lemma gen_catch : forall t b c, gen (Catch t b) c =
  obind (gens b (top true)) (fun _ => Some [TCatch t b]).
Proof. reflexivity. Qed.

Lemma gen_callb : forall f b c, gen (CallB f b) c =
  obind (gens b (top true)) (fun _ => Some [TCallB f b]).
Proof. reflexivity. Qed.

Lemma gen_block : forall b c, gen (Block b) c =
  match c_loops c, c_ens c, c_rty c, c_blk c with
  | [], [], 0, true => obind (gens b c) (fun t => Some [TBlock t])
  | _, _, _, _ => None
  end.
Proof. reflexivity. Qed.

Lemma obind_some : forall {A B} (o : option A) (f : A -> option B) r,
  obind o f = Some r -> exists a, o = Some a /\ f a = Some r.
Proof. intros A B [a|] f r H; cbn in H; [eauto|discriminate]. Qed.

(** * Fuel *)

Definition outr (r : tres) : option (tst * option tout) :=
  match r with Some (st, o) => Some (st, Some o) | None => None end.

Lemma clauses_cons : forall P rn fr l e st k b cs copy ens,
  clauses P rn fr l e st ((k, b) :: cs) copy ens =
  match p_ask P ((k, e) :: t_tr st) with
  | Exc e' => outr (nomatch rn fr e' (with_tr st (k, e)) copy)
  | No => clauses P rn fr l e (with_tr st (k, e)) cs copy ens
  | Yes =>
      match rn fr (with_tr st (k, e)) b with
      | None => None
      | Some (st, ONorm) => outr (finish rn fr st ens)
      | Some (st, ORaise e') => outr (nomatch rn fr e' st copy)
      | Some (st, OUnw u) =>
          match ens with
          | Some _ => outr (unwind rn fr u st ens)
          | None => Some (st, Some (OUnw u))
          end
      | Some (st, OJmp (JRty l')) =>
          if l' =? l then Some (st, None)
          else Some (st, Some (OJmp (JRty l')))
      | Some (st, o) => Some (st, Some o)
      end
  end.
Proof. reflexivity. Qed.

Lemma outr_mono : forall a b r,
  (forall r, a = Some r -> b = Some r) -> outr a = Some r -> outr b = Some r.
Proof.
  intros [[st o]|] b r H E; cbn in E; [|discriminate].
  rewrite (H _ eq_refl). exact E.
Qed.

Definition below (f g : frame -> tst -> list tstmt -> tres) : Prop :=
  forall fr st code r, f fr st code = Some r -> g fr st code = Some r.

Section mono.
Variable P : prog.
Variables f g : frame -> tst -> list tstmt -> tres.
Hypothesis FG : below f g.

Lemma finish_mono : forall fr st ens r,
  finish f fr st ens = Some r -> finish g fr st ens = Some r.
Proof.
  intros fr st [l|] r; cbn; auto.
  destruct (f fr st l) as [[st' o]|] eqn:E; [|discriminate].
  rewrite (FG _ _ _ _ E). auto.
Qed.

Lemma nomatch_mono : forall fr e st copy r,
  nomatch f fr e st copy = Some r -> nomatch g fr e st copy = Some r.
Proof.
  intros fr e st [l|] r; cbn; auto.
  destruct (f fr st l) as [[st' o]|] eqn:E; [|discriminate].
  rewrite (FG _ _ _ _ E). auto.
Qed.

Lemma clauses_mono : forall fr l cs e st copy ens r,
  clauses P f fr l e st cs copy ens = Some r ->
  clauses P g fr l e st cs copy ens = Some r.
Proof.
  induction cs as [|[k b] cs IH]; intros e st copy ens r.
  - change (outr (nomatch f fr e st copy) = Some r ->
            outr (nomatch g fr e st copy) = Some r).
    apply outr_mono. apply nomatch_mono.
  - rewrite !clauses_cons.
    destruct (p_ask P ((k, e) :: t_tr st)) as [| |e'].
    + destruct (f fr (with_tr st (k, e)) b) as [[st' o]|] eqn:E;
        [|discriminate].
      rewrite (FG _ _ _ _ E).
      destruct o as [|e'|u|u|j|v]; auto.
      * apply outr_mono. apply finish_mono.
      * apply outr_mono. apply nomatch_mono.
      * destruct ens as [en|]; auto. apply outr_mono. apply finish_mono.
    + apply IH.
    + apply outr_mono. apply nomatch_mono.
Qed.

Lemma invoke_mono : forall fr blk body st r,
  invoke f fr blk body st = Some r -> invoke g fr blk body st = Some r.
Proof.
  intros fr blk body st r. unfold invoke.
  destruct (gens body (top blk)) as [code|]; auto.
  destruct (f fr (with_x st 0) code) as [[st' o]|] eqn:E; [|discriminate].
  rewrite (FG _ _ _ _ E). auto.
Qed.

Lemma after_mono : forall fr a b r,
  (forall r, a = Some r -> b = Some r) ->
  after fr a = Some r -> after fr b = Some r.
Proof.
  intros fr [[st c]|] b r H E; cbn in E; [|discriminate].
  rewrite (H _ eq_refl). exact E.
Qed.

Lemma caught_mono : forall t a b r,
  (forall r, a = Some r -> b = Some r) ->
  caught t a = Some r -> caught t b = Some r.
Proof.
  intros t [[st c]|] b r H E; cbn in E; [|discriminate].
  rewrite (H _ eq_refl). exact E.
Qed.

Ltac fg := let H := fresh in intro H; exact (FG _ _ _ _ H).

Lemma tbody_mono : forall fr st l k body r,
  tbody f fr st l k body = Some r -> tbody g fr st l k body = Some r.
Proof.
  intros fr st l k body r. unfold tbody.
  destruct (f fr st body) as [[st' o]|] eqn:E; [|discriminate].
  rewrite (FG _ _ _ _ E).
  destruct o as [|e|u|u|j|v]; auto; try fg.
  destruct j as [l'|l'|l'| |l']; auto; destruct (l' =? l); auto; fg.
Qed.

Lemma tone_mono : forall fr st s r,
  tone P f fr st s = Some r -> tone P g fr st s = Some r.
Proof.
  intros fr st s r. destruct s; cbn [tone]; auto.
  - destruct (ask P st k 0) as [st1 [| |e]]; auto; fg.
  - destruct again; [apply tbody_mono|].
    destruct (ask P st k 0) as [st1 [| |e]]; auto. apply tbody_mono.
  - destruct (f fr st body) as [[st' o]|] eqn:E; [|discriminate].
    rewrite (FG _ _ _ _ E).
    destruct o as [|e|u|u|j|v]; auto.
    + destruct els as [el|]; [|apply finish_mono].
      destruct (f fr st' el) as [[st2 o]|] eqn:F; [|discriminate].
      rewrite (FG _ _ _ _ F). destruct o; auto. apply finish_mono.
    + destruct (clauses P f fr l e st' resc copy ens) as [[st2 [o|]]|] eqn:F;
        [| |discriminate]; rewrite (clauses_mono _ _ _ _ _ _ _ _ F); auto; fg.
    + destruct ens; auto. apply finish_mono.
  - apply after_mono. intros r'. apply caught_mono. intro.
    apply invoke_mono.
  - apply after_mono. intro. apply invoke_mono.
  - apply after_mono. intro. apply invoke_mono.
  - destruct (f_blk fr); auto. apply after_mono. intro. apply invoke_mono.
  - destruct (f fr st b) as [[st' o]|] eqn:E; [|discriminate].
    rewrite (FG _ _ _ _ E).
    destruct o as [|e|u|u|j|v]; auto. destruct j; auto; fg.
Qed.

End mono.

Lemma trun_below_S : forall P n, below (trun P n) (trun P (S n)).
Proof.
  induction n as [|n IH]; intros fr st code r H; [discriminate H|].
  destruct code as [|s rest]; [exact H|].
  cbn [trun] in H.
  change (trun P (S (S n)) fr st (s :: rest)) with
    (match tone P (trun P (S n)) fr st s with
     | Some (st, ONorm) => trun P (S n) fr st rest
     | r => r
     end).
  destruct (tone P (trun P n) fr st s) as [[st' o]|] eqn:E; [|discriminate].
  rewrite (tone_mono P _ _ IH _ _ _ _ E).
  destruct o; auto.
Qed.

Lemma trun_below : forall P n m, n <= m -> below (trun P n) (trun P m).
Proof.
  intros P n m L. induction L as [|m L IH].
  - intros fr st code r H. exact H.
  - intros fr st code r H. apply trun_below_S. apply IH. exact H.
Qed.

(** * Rules for the machine *)

Section rules.
Variable P : prog.

Definition tev (fr : frame) (st : tst) (code : list tstmt) (st' : tst)
    (o : tout) : Prop := exists m, trun P m fr st code = Some (st', o).

(** One statement, given some amount of fuel for its parts. *)
Definition tev1 (fr : frame) (st : tst) (s : tstmt) (st' : tst) (o : tout)
  : Prop := exists m, tone P (trun P m) fr st s = Some (st', o).

Lemma tev_nil : forall fr st, tev fr st [] st ONorm.
Proof. intros. exists 1. reflexivity. Qed.

Lemma tev_norm : forall fr st s st1 rest st2 o,
  tev1 fr st s st1 ONorm -> tev fr st1 rest st2 o ->
  tev fr st (s :: rest) st2 o.
Proof.
  intros fr st s st1 rest st2 o [m H] [m' H'].
  exists (S (m + m')). cbn [trun].
  rewrite (tone_mono P _ _ (trun_below P m (m + m') ltac:(lia)) _ _ _ _ H).
  apply (trun_below P m' (m + m') ltac:(lia) _ _ _ _ H').
Qed.

Lemma tev_stop : forall fr st s st1 rest o,
  tev1 fr st s st1 o -> o <> ONorm -> tev fr st (s :: rest) st1 o.
Proof.
  intros fr st s st1 rest o [m H] N.
  exists (S m). cbn [trun]. rewrite H. destruct o; congruence.
Qed.

Lemma tev_one : forall fr st s st1 o,
  tev1 fr st s st1 o -> tev fr st [s] st1 o.
Proof.
  intros fr st s st1 o H.
  assert (D : o = ONorm \/ o <> ONorm) by (destruct o; auto; right; congruence).
  destruct D as [D|D].
  - subst o. eapply tev_norm; [exact H|apply tev_nil].
  - apply tev_stop; auto.
Qed.

Lemma tev_cons_inv : forall fr st s rest st2 o,
  tev fr st (s :: rest) st2 o ->
  (exists st1, tev1 fr st s st1 ONorm /\ tev fr st1 rest st2 o) \/
  (tev1 fr st s st2 o /\ o <> ONorm).
Proof.
  intros fr st s rest st2 o [m H]. destruct m as [|m]; [discriminate|].
  cbn [trun] in H.
  destruct (tone P (trun P m) fr st s) as [[st1 o1]|] eqn:E; [|discriminate].
  destruct o1; try (right; split; [exists m; congruence|congruence]).
  left. exists st1. split; [exists m; auto|exists m; auto].
Qed.

Lemma tev_app : forall fr a st st1 b st2 o,
  tev fr st a st1 ONorm -> tev fr st1 b st2 o -> tev fr st (a ++ b) st2 o.
Proof.
  induction a as [|s a IH]; intros st st1 b st2 o H H'; cbn.
  - destruct H as [[|m] H]; [discriminate|]. cbn in H. inversion H; subst.
    exact H'.
  - destruct (tev_cons_inv _ _ _ _ _ _ H) as [[st' [A B]]|[A B]];
      [|congruence].
    eapply tev_norm; [exact A|]. eapply IH; eauto.
Qed.

Lemma tev_app_stop : forall fr a st st1 b o,
  tev fr st a st1 o -> o <> ONorm -> tev fr st (a ++ b) st1 o.
Proof.
  induction a as [|s a IH]; intros st st1 b o H N; cbn.
  - destruct H as [[|m] H]; [discriminate|]. cbn in H. inversion H; subst.
    congruence.
  - destruct (tev_cons_inv _ _ _ _ _ _ H) as [[st' [A B]]|[A B]].
    + eapply tev_norm; [exact A|]. eapply IH; eauto.
    + apply tev_stop; auto.
Qed.

(** ** Pieces of a begin *)

Definition ev_finish fr st ens st' o :=
  exists m, finish (trun P m) fr st ens = Some (st', o).
Definition ev_nomatch fr e st copy st' o :=
  exists m, nomatch (trun P m) fr e st copy = Some (st', o).
Definition ev_clauses fr l e st cs copy ens st' r :=
  exists m, clauses P (trun P m) fr l e st cs copy ens = Some (st', r).
Definition ev_invoke fr blk body st st' r :=
  exists m, invoke (trun P m) fr blk body st = Some (st', r).

Lemma finish_none : forall fr st, ev_finish fr st None st ONorm.
Proof. intros. exists 0. reflexivity. Qed.

Lemma finish_norm : forall fr st l st1,
  tev fr st l st1 ONorm ->
  ev_finish fr st (Some l) (fst (ensure_end (f_lfp fr) st1))
            (snd (ensure_end (f_lfp fr) st1)).
Proof.
  intros fr st l st1 [m H]. exists m. cbn. rewrite H.
  destruct (ensure_end (f_lfp fr) st1). reflexivity.
Qed.

Lemma finish_stop : forall fr st l st1 o,
  tev fr st l st1 o -> o <> ONorm -> ev_finish fr st (Some l) st1 o.
Proof.
  intros fr st l st1 o [m H] N. exists m. cbn. rewrite H.
  destruct o; congruence.
Qed.

Lemma nomatch_none : forall fr e st, ev_nomatch fr e st None st (ORaise e).
Proof. intros. exists 0. reflexivity. Qed.

Lemma nomatch_norm : forall fr e st l st1,
  tev fr st l st1 ONorm -> ev_nomatch fr e st (Some l) st1 (ORaise e).
Proof. intros fr e st l st1 [m H]. exists m. cbn. rewrite H. reflexivity. Qed.

Lemma nomatch_stop : forall fr e st l st1 o,
  tev fr st l st1 o -> o <> ONorm -> ev_nomatch fr e st (Some l) st1 o.
Proof.
  intros fr e st l st1 o [m H] N. exists m. cbn. rewrite H.
  destruct o; congruence.
Qed.

Lemma clauses_nil : forall fr l e st copy ens st' o,
  ev_nomatch fr e st copy st' o ->
  ev_clauses fr l e st [] copy ens st' (Some o).
Proof.
  intros fr l e st copy ens st' o [m H]. exists m. cbn. rewrite H. reflexivity.
Qed.

Lemma clauses_exc : forall fr l e st k b cs copy ens st' o e',
  p_ask P ((k, e) :: t_tr st) = Exc e' ->
  ev_nomatch fr e' (with_tr st (k, e)) copy st' o ->
  ev_clauses fr l e st ((k, b) :: cs) copy ens st' (Some o).
Proof.
  intros until e'. intros A [m H]. exists m. rewrite clauses_cons, A, H. reflexivity.
Qed.

Lemma clauses_no : forall fr l e st k b cs copy ens st' r,
  p_ask P ((k, e) :: t_tr st) = No ->
  ev_clauses fr l e (with_tr st (k, e)) cs copy ens st' r ->
  ev_clauses fr l e st ((k, b) :: cs) copy ens st' r.
Proof.
  intros until r. intros A [m H]. exists m. rewrite clauses_cons, A. exact H.
Qed.

Lemma clauses_norm : forall fr l e st k b cs copy ens st1 st' o,
  p_ask P ((k, e) :: t_tr st) = Yes ->
  tev fr (with_tr st (k, e)) b st1 ONorm ->
  ev_finish fr st1 ens st' o ->
  ev_clauses fr l e st ((k, b) :: cs) copy ens st' (Some o).
Proof.
  intros until o. intros A [m H] [m' H']. exists (m + m'). rewrite clauses_cons, A.
  rewrite (trun_below P m (m + m') ltac:(lia) _ _ _ _ H).
  rewrite (finish_mono _ _ (trun_below P m' (m + m') ltac:(lia)) _ _ _ _ H').
  reflexivity.
Qed.

Lemma clauses_raise : forall fr l e st k b cs copy ens st1 st' o e',
  p_ask P ((k, e) :: t_tr st) = Yes ->
  tev fr (with_tr st (k, e)) b st1 (ORaise e') ->
  ev_nomatch fr e' st1 copy st' o ->
  ev_clauses fr l e st ((k, b) :: cs) copy ens st' (Some o).
Proof.
  intros until e'. intros A [m H] [m' H']. exists (m + m'). rewrite clauses_cons, A.
  rewrite (trun_below P m (m + m') ltac:(lia) _ _ _ _ H).
  rewrite (nomatch_mono _ _ (trun_below P m' (m + m') ltac:(lia))
             _ _ _ _ _ H').
  reflexivity.
Qed.

Lemma clauses_unw : forall fr l e st k b cs copy en st1 st' o u,
  p_ask P ((k, e) :: t_tr st) = Yes ->
  tev fr (with_tr st (k, e)) b st1 (OUnw u) ->
  ev_finish fr (defer (f_lfp fr) u st1) (Some en) st' o ->
  ev_clauses fr l e st ((k, b) :: cs) copy (Some en) st' (Some o).
Proof.
  intros until u. intros A [m H] [m' H']. exists (m + m').
  rewrite clauses_cons, A.
  rewrite (trun_below P m (m + m') ltac:(lia) _ _ _ _ H). unfold unwind.
  rewrite (finish_mono _ _ (trun_below P m' (m + m') ltac:(lia)) _ _ _ _ H').
  reflexivity.
Qed.

Lemma clauses_unw0 : forall fr l e st k b cs copy st1 u,
  p_ask P ((k, e) :: t_tr st) = Yes ->
  tev fr (with_tr st (k, e)) b st1 (OUnw u) ->
  ev_clauses fr l e st ((k, b) :: cs) copy None st1 (Some (OUnw u)).
Proof.
  intros until u. intros A [m H]. exists m. rewrite clauses_cons, A, H. reflexivity.
Qed.

Lemma clauses_hid : forall fr l e st k b cs copy ens st1 u,
  p_ask P ((k, e) :: t_tr st) = Yes ->
  tev fr (with_tr st (k, e)) b st1 (OHid u) ->
  ev_clauses fr l e st ((k, b) :: cs) copy ens st1 (Some (OHid u)).
Proof.
  intros until u. intros A [m H]. exists m. rewrite clauses_cons, A, H. reflexivity.
Qed.

Lemma clauses_ret : forall fr l e st k b cs copy ens st1 v,
  p_ask P ((k, e) :: t_tr st) = Yes ->
  tev fr (with_tr st (k, e)) b st1 (ORet v) ->
  ev_clauses fr l e st ((k, b) :: cs) copy ens st1 (Some (ORet v)).
Proof.
  intros until v. intros A [m H]. exists m. rewrite clauses_cons, A, H. reflexivity.
Qed.

Lemma clauses_jmp : forall fr l e st k b cs copy ens st1 j,
  p_ask P ((k, e) :: t_tr st) = Yes ->
  tev fr (with_tr st (k, e)) b st1 (OJmp j) ->
  (forall l', j = JRty l' -> l' <> l) ->
  ev_clauses fr l e st ((k, b) :: cs) copy ens st1 (Some (OJmp j)).
Proof.
  intros until j. intros A [m H] N. exists m. rewrite clauses_cons, A, H.
  destruct j as [l'|l'|l'| |l']; auto.
  destruct (l' =? l) eqn:E; auto.
  apply Nat.eqb_eq in E. exfalso. exact (N l' eq_refl E).
Qed.

Lemma clauses_retry : forall fr l e st k b cs copy ens st1,
  p_ask P ((k, e) :: t_tr st) = Yes ->
  tev fr (with_tr st (k, e)) b st1 (OJmp (JRty l)) ->
  ev_clauses fr l e st ((k, b) :: cs) copy ens st1 None.
Proof.
  intros until st1. intros A [m H]. exists m. rewrite clauses_cons, A, H.
  rewrite Nat.eqb_refl. reflexivity.
Qed.

(** ** Begin *)

Lemma begin_norm : forall fr st l body resc copy ens st1 st2 o,
  tev fr st body st1 ONorm -> ev_finish fr st1 ens st2 o ->
  tev1 fr st (TBegin l body resc copy None ens) st2 o.
Proof.
  intros until o. intros [m H] [m' H']. exists (m + m'). cbn [tone].
  rewrite (trun_below P m (m + m') ltac:(lia) _ _ _ _ H).
  exact (finish_mono _ _ (trun_below P m' (m + m') ltac:(lia)) _ _ _ _ H').
Qed.

Lemma begin_else : forall fr st l body resc copy el ens st1 st2 st3 o,
  tev fr st body st1 ONorm -> tev fr st1 el st2 ONorm ->
  ev_finish fr st2 ens st3 o ->
  tev1 fr st (TBegin l body resc copy (Some el) ens) st3 o.
Proof.
  intros until o. intros [m H] [m1 H1] [m' H']. exists (m + m1 + m').
  cbn [tone].
  rewrite (trun_below P m (m + m1 + m') ltac:(lia) _ _ _ _ H).
  rewrite (trun_below P m1 (m + m1 + m') ltac:(lia) _ _ _ _ H1).
  exact (finish_mono _ _ (trun_below P m' (m + m1 + m') ltac:(lia))
           _ _ _ _ H').
Qed.

Lemma begin_else_stop : forall fr st l body resc copy el ens st1 st2 o,
  tev fr st body st1 ONorm -> tev fr st1 el st2 o -> o <> ONorm ->
  tev1 fr st (TBegin l body resc copy (Some el) ens) st2 o.
Proof.
  intros until o. intros [m H] [m1 H1] N. exists (m + m1).
  cbn [tone].
  rewrite (trun_below P m (m + m1) ltac:(lia) _ _ _ _ H).
  rewrite (trun_below P m1 (m + m1) ltac:(lia) _ _ _ _ H1).
  destruct o; congruence.
Qed.

Lemma begin_raise : forall fr st l body resc copy els ens st1 e st2 o,
  tev fr st body st1 (ORaise e) ->
  ev_clauses fr l e st1 resc copy ens st2 (Some o) ->
  tev1 fr st (TBegin l body resc copy els ens) st2 o.
Proof.
  intros until o. intros [m H] [m' H']. exists (m + m'). cbn [tone].
  rewrite (trun_below P m (m + m') ltac:(lia) _ _ _ _ H).
  rewrite (clauses_mono P _ _ (trun_below P m' (m + m') ltac:(lia))
             _ _ _ _ _ _ _ _ H').
  reflexivity.
Qed.

Lemma begin_again : forall fr st l body resc copy els ens st1 e st2 st3 o,
  tev fr st body st1 (ORaise e) ->
  ev_clauses fr l e st1 resc copy ens st2 None ->
  tev fr st2 [TBegin l body resc copy els ens] st3 o ->
  tev1 fr st (TBegin l body resc copy els ens) st3 o.
Proof.
  intros until o. intros [m H] [m1 H1] [m' H']. exists (m + m1 + m').
  cbn [tone].
  rewrite (trun_below P m (m + m1 + m') ltac:(lia) _ _ _ _ H).
  rewrite (clauses_mono P _ _ (trun_below P m1 (m + m1 + m') ltac:(lia))
             _ _ _ _ _ _ _ _ H1).
  exact (trun_below P m' (m + m1 + m') ltac:(lia) _ _ _ _ H').
Qed.

Lemma begin_unw : forall fr st l body resc copy els en st1 u st2 o,
  tev fr st body st1 (OUnw u) ->
  ev_finish fr (defer (f_lfp fr) u st1) (Some en) st2 o ->
  tev1 fr st (TBegin l body resc copy els (Some en)) st2 o.
Proof.
  intros until o. intros [m H] [m' H']. exists (m + m'). cbn [tone].
  rewrite (trun_below P m (m + m') ltac:(lia) _ _ _ _ H). unfold unwind.
  exact (finish_mono _ _ (trun_below P m' (m + m') ltac:(lia)) _ _ _ _ H').
Qed.

Lemma begin_unw0 : forall fr st l body copy els st1 u,
  tev fr st body st1 (OUnw u) ->
  tev1 fr st (TBegin l body [] copy els None) st1 (OUnw u).
Proof.
  intros until u. intros [m H]. exists m. cbn [tone]. rewrite H. reflexivity.
Qed.

Lemma begin_hide : forall fr st l body resc copy els st1 u,
  tev fr st body st1 (OUnw u) -> resc <> [] ->
  tev1 fr st (TBegin l body resc copy els None) st1 (OHid u).
Proof.
  intros until u. intros [m H] N. exists m. cbn [tone]. rewrite H.
  destruct resc; congruence.
Qed.

Definition passes (o : tout) : Prop :=
  match o with OHid _ | OJmp _ | ORet _ => True | _ => False end.

Lemma begin_pass : forall fr st l body resc copy els ens st1 o,
  tev fr st body st1 o -> passes o ->
  tev1 fr st (TBegin l body resc copy els ens) st1 o.
Proof.
  intros until o. intros [m H] N. exists m. cbn [tone]. rewrite H.
  destruct o; cbn in N; tauto.
Qed.

(** ** Loops *)

Definition ev_body fr st l k body st' o :=
  exists m, tbody (trun P m) fr st l k body = Some (st', o).

Lemma body_next : forall fr st l k body st1 st2 o r,
  tev fr st body st1 r -> r = ONorm \/ r = OJmp (JNxt l) ->
  tev fr st1 [TWhile l false k body] st2 o ->
  ev_body fr st l k body st2 o.
Proof.
  intros until r. intros [m H] R [m' H']. exists (m + m'). unfold tbody.
  rewrite (trun_below P m (m + m') ltac:(lia) _ _ _ _ H).
  pose proof (trun_below P m' (m + m') ltac:(lia) _ _ _ _ H') as H2.
  destruct R; subst r; auto. rewrite Nat.eqb_refl. exact H2.
Qed.

Lemma body_redo : forall fr st l k body st1 st2 o,
  tev fr st body st1 (OJmp (JRdo l)) ->
  tev fr st1 [TWhile l true k body] st2 o ->
  ev_body fr st l k body st2 o.
Proof.
  intros until o. intros [m H] [m' H']. exists (m + m'). unfold tbody.
  rewrite (trun_below P m (m + m') ltac:(lia) _ _ _ _ H).
  rewrite Nat.eqb_refl.
  exact (trun_below P m' (m + m') ltac:(lia) _ _ _ _ H').
Qed.

Lemma body_break : forall fr st l k body st1,
  tev fr st body st1 (OJmp (JBrk l)) -> ev_body fr st l k body st1 ONorm.
Proof.
  intros until st1. intros [m H]. exists m. unfold tbody. rewrite H.
  rewrite Nat.eqb_refl. reflexivity.
Qed.

Lemma body_pass : forall fr st l k body st1 o,
  tev fr st body st1 o ->
  match o with
  | ONorm | OJmp (JBrk _) | OJmp (JNxt _) | OJmp (JRdo _) => False
  | _ => True
  end -> ev_body fr st l k body st1 o.
Proof.
  intros until o. intros [m H] N. exists m. unfold tbody. rewrite H.
  destruct o as [|e|u|u|j|v]; try tauto. destruct j; tauto.
Qed.

(** ** Calls *)

Lemma invoke_run : forall fr blk body st code st' o,
  gens body (top blk) = Some code ->
  tev fr (with_x st 0) code st' o ->
  (forall j, o <> OJmp j) ->
  ev_invoke fr blk body st
    (with_x (match o with ONorm | ORet _ => st' | _ => discard (f_lfp fr) st'
             end) (t_x st))
    (match o with
     | ONorm => RVal (t_x st')
     | ORet v => RVal v
     | ORaise e => RRaise e
     | OUnw (URet t v) | OHid (URet t v) =>
         if t =? f_lfp fr then RVal v else RUnw (URet t v)
     | OUnw u | OHid u => RUnw u
     | OJmp _ => RVal 0
     end).
Proof.
  intros until o. intros G [m H] N. exists m. unfold invoke. rewrite G, H.
  destruct o as [|e|u|u|j|v]; auto; try (exfalso; exact (N j eq_refl));
    destruct u; auto; destruct (target =? f_lfp fr); auto.
Qed.

End rules.

(** * What a run of the specification keeps *)

(** The flag is never raised and the counter never falls. *)
Definition grows (a b : sst) : Prop :=
  s_n a <= s_n b /\ (s_q b = true -> s_q a = true).

Lemma grows_refl : forall a, grows a a.
Proof. split; auto. Qed.
Lemma grows_trans : forall a b c, grows a b -> grows b c -> grows a c.
Proof. intros a b c [A B] [C D]. split; [lia|auto]. Qed.
Lemma grows_ev : forall a ev, grows a (s_ev a ev).
Proof. split; auto. Qed.
Lemma grows_setx : forall a v, grows a (s_setx a v).
Proof. split; auto. Qed.
Lemma grows_low : forall a b, grows a (low b a).
Proof. intros a b. split; cbn; [auto|]. destruct b; [discriminate|auto]. Qed.
Lemma grows_tick : forall a, grows a (tick a).
Proof. split; cbn; auto. Qed.
#[export] Hint Resolve grows_refl grows_ev grows_setx grows_low grows_tick
  : grw.

Lemma sclauses_cons : forall P rn fr lp d p' e st k b cs,
  sclauses P rn fr lp d p' e st ((k, b) :: cs) =
  match p_ask P ((k, e) :: s_tr st) with
  | Exc e' => Some (s_ev st (k, e), CRaise e')
  | No => sclauses P rn fr lp d p' e (s_ev st (k, e)) cs
  | Yes => rn fr lp p' d (s_ev st (k, e)) b
  end.
Proof. reflexivity. Qed.

Lemma sask_eq : forall P st k e,
  sask P st k e = (s_ev st (k, e), p_ask P ((k, e) :: s_tr st)).
Proof. reflexivity. Qed.

Lemma ask_eq : forall P st k e,
  ask P st k e = (with_tr st (k, e), p_ask P ((k, e) :: t_tr st)).
Proof. reflexivity. Qed.

Definition growing
    (rn : frame -> lkind -> bool -> bool -> sst -> list stmt -> sres) : Prop :=
  forall fr lp p d st code st' c,
    rn fr lp p d st code = Some (st', c) -> grows st st'.

Section grow.
Variable P : prog.
Variable rn : frame -> lkind -> bool -> bool -> sst -> list stmt -> sres.
Hypothesis G : growing rn.

Lemma sfinish_grows : forall fr lp p d ens st c st' c',
  sfinish rn fr lp p d ens st c = Some (st', c') -> grows st st'.
Proof.
  intros until c'. destruct ens as [eb|]; cbn; intro H.
  - destruct (rn fr (outl lp) p (d || is_unw c) st eb) as [[st1 c1]|] eqn:E;
      [|discriminate].
    inversion H; subst. eapply grows_trans; [exact (G _ _ _ _ _ _ _ _ E)|].
    apply grows_low.
  - inversion H; subst. apply grows_refl.
Qed.

Lemma sclauses_grows : forall fr lp d p' cs e st st' c,
  sclauses P rn fr lp d p' e st cs = Some (st', c) -> grows st st'.
Proof.
  induction cs as [|[k b] cs IH]; intros e st st' c H.
  - inversion H; subst. apply grows_refl.
  - rewrite sclauses_cons in H. destruct (p_ask P ((k, e) :: s_tr st)).
    + eapply grows_trans; [apply grows_ev|]. exact (G _ _ _ _ _ _ _ _ H).
    + eapply grows_trans; [apply grows_ev|]. exact (IH _ _ _ _ H).
    + inversion H; subst. apply grows_ev.
Qed.

Lemma sinvoke_grows : forall fr body st st' r,
  sinvoke rn fr body st = Some (st', r) -> grows st st'.
Proof.
  intros fr body st st' r. unfold sinvoke.
  destruct (rn fr LNo false false (s_setx st 0) body) as [[st1 c]|] eqn:E;
    [|discriminate].
  intro H. apply G in E.
  assert (A : st' = s_setx st1 (s_x st)).
  { destruct c as [| |u| | | | | |]; try discriminate;
      try (inversion H; subst; reflexivity).
    destruct u; try (inversion H; subst; reflexivity).
    destruct (target =? f_lfp fr); inversion H; subst; reflexivity. }
  subst st'. destruct E as [A B]. split; cbn in *; auto.
Qed.

Lemma safter_grows : forall fr d r st st' c,
  (forall st' x, r = Some (st', x) -> grows st st') ->
  safter fr d r = Some (st', c) -> grows st st'.
Proof.
  intros fr d [[st1 x]|] st st' c A H; cbn in H; [|discriminate].
  pose proof (A _ _ eq_refl) as B.
  destruct x as [v|e|u].
  - inversion H; subst. eapply grows_trans; [exact B|apply grows_setx].
  - inversion H; subst. exact B.
  - destruct u as [t|t v|o v]; try (inversion H; subst; exact B).
    destruct (o =? f_lfp fr); inversion H; subst; [|exact B].
    eapply grows_trans; [exact B|]. eapply grows_trans; [apply grows_setx|].
    apply grows_low.
Qed.

Lemma scaught_grows : forall t r st,
  (forall st' x, r = Some (st', x) -> grows st st') ->
  forall st' x, scaught t r = Some (st', x) -> grows st st'.
Proof.
  intros t [[st1 y]|] st A st' x H; cbn in H; [|discriminate].
  destruct y as [v|e|u]; try (eapply A; exact H).
  destruct u as [t'|t' v|o v]; try (eapply A; exact H).
  destruct (t' =? t); [|eapply A; exact H].
  inversion H; subst. eapply A. reflexivity.
Qed.

Lemma sbody_grows : forall fr lp p d st k body st' c,
  sbody rn fr lp p d st k body = Some (st', c) -> grows st st'.
Proof.
  intros until c. unfold sbody.
  destruct (rn fr LIn p d st body) as [[st1 c1]|] eqn:E; [|discriminate].
  apply G in E. intro H.
  destruct c1; try (inversion H; subst; exact E);
    (eapply grows_trans; [exact E|exact (G _ _ _ _ _ _ _ _ H)]).
Qed.

Lemma sone_grows : forall fr lp p d st s st' c,
  sone P rn fr lp p d st s = Some (st', c) -> grows st st'.
Proof.
  intros until c. destruct s; cbn [sone]; cbn zeta; intro H.
  - rewrite sask_eq in H. destruct (p_ask P ((k, 0) :: s_tr st));
      inversion H; subst; apply grows_ev.
  - inversion H; subst. apply grows_setx.
  - rewrite sask_eq in H. destruct (p_ask P ((k, 0) :: s_tr st));
      try (eapply grows_trans; [apply grows_ev|exact (G _ _ _ _ _ _ _ _ H)]).
    inversion H; subst; apply grows_ev.
  - destruct again; [exact (sbody_grows _ _ _ _ _ _ _ _ _ H)|].
    rewrite sask_eq in H. destruct (p_ask P ((k, 0) :: s_tr st)).
    + eapply grows_trans; [apply grows_ev|exact (sbody_grows _ _ _ _ _ _ _ _ _ H)].
    + inversion H; subst; apply grows_ev.
    + inversion H; subst; apply grows_ev.
  - destruct (rn fr lp (p || some ens) d st body) as [[st1 c1]|] eqn:E;
      [|discriminate].
    apply G in E.
    assert (Q : forall b c, sfinish rn fr lp p d ens (low b st1) c
                            = Some (st', c) -> grows st st').
    { intros b c0 F. eapply grows_trans; [exact E|].
      eapply grows_trans; [apply (grows_low st1 b)|].
      exact (sfinish_grows _ _ _ _ _ _ _ _ _ F). }
    assert (Q' : forall b c c', sfinish rn fr lp p d ens (low b st1) c
                            = Some (st', c') -> grows st st').
    { intros b c0 c' F. eapply grows_trans; [exact E|].
      eapply grows_trans; [apply (grows_low st1 b)|].
      exact (sfinish_grows _ _ _ _ _ _ _ _ _ F). }
    destruct c1; try (exact (Q' _ _ _ H)).
    + destruct els as [el|].
      * destruct (rn fr lp (p || some ens) d st1 el) as [[st2 c2]|] eqn:F;
          [|discriminate].
        apply G in F. eapply grows_trans; [exact E|].
        eapply grows_trans; [exact F|].
        eapply grows_trans; [apply (grows_low st2)|].
        exact (sfinish_grows _ _ _ _ _ _ _ _ _ H).
      * eapply grows_trans; [exact E|].
        exact (sfinish_grows _ _ _ _ _ _ _ _ _ H).
    + destruct (sclauses P rn fr lp d (p || some ens) e st1 resc)
        as [[st2 c2]|] eqn:F; [|discriminate].
      apply sclauses_grows in F. eapply grows_trans; [exact E|].
      eapply grows_trans; [exact F|].
      destruct c2; try exact (sfinish_grows _ _ _ _ _ _ _ _ _ H);
        exact (G _ _ _ _ _ _ _ _ H).
  - destruct lp; try (inversion H; subst; unfold far; apply grows_low).
    destruct (f_outer fr); inversion H; subst; apply grows_refl.
  - destruct lp; try (inversion H; subst; unfold far; apply grows_low).
    destruct (some (f_outer fr)); inversion H; subst; apply grows_refl.
  - destruct lp; try (inversion H; subst; unfold far; apply grows_low).
    destruct (some (f_outer fr)); inversion H; subst; apply grows_refl.
  - inversion H; subst; apply grows_refl.
  - inversion H; subst; apply grows_refl.
  - inversion H; subst; apply grows_refl.
  - inversion H; subst; apply grows_refl.
  - eapply safter_grows; [|exact H]. apply scaught_grows. intros.
    eapply sinvoke_grows; eauto.
  - eapply safter_grows; [|exact H]. intros. eapply sinvoke_grows; eauto.
  - eapply safter_grows; [|exact H]. intros. eapply sinvoke_grows; eauto.
  - destruct (f_blk fr); [|discriminate].
    eapply safter_grows; [|exact H]. intros. eapply sinvoke_grows; eauto.
  - destruct (rn fr LNo false d st b) as [[st1 c1]|] eqn:E; [|discriminate].
    apply G in E.
    destruct c1; try (inversion H; subst; exact E).
    eapply grows_trans; [exact E|exact (G _ _ _ _ _ _ _ _ H)].
Qed.

End grow.

Lemma srun_grows : forall P n, growing (srun P n).
Proof.
  induction n as [|n IH]; intros fr lp p d st code st' c H; [discriminate|].
  cbn [srun] in H. destruct code as [|s rest].
  - inversion H; subst. apply grows_refl.
  - destruct (sone P (srun P n) fr lp p d (tick st) s) as [[st1 c1]|] eqn:E;
      [|discriminate].
    apply (sone_grows P _ IH) in E.
    eapply grows_trans; [apply grows_tick|].
    destruct c1; try (inversion H; subst; exact E).
    eapply grows_trans; [exact E|exact (IH _ _ _ _ _ _ _ _ H)].
Qed.
