(** The histories that refute. *)
From Coq Require Import ZArith List Bool Lia.
From Verif Require Import ClassModel ClassSpec ClassProofs ClassWeaveProofs ClassPrependProofs.
Import ListNotations.
Open Scope Z_scope.

Fixpoint run (s : state) (l : list op) : option state :=
  match l with [] => Some s | o :: t => match step s o with State s' => run s' t | _ => None end end.
Lemma run_reachable l : forall s s', reachable s -> run s l = Some s' -> reachable s'.
Proof.
  induction l as [|o t IH]; intros s s' r e; cbn [run] in e; [congruence|]. destruct (step s o) as [s1|s1| |] eqn:q; try discriminate.
  apply (IH s1); auto. apply (reach_step s o); auto.
Qed.
Definition after (l : list op) : state := match run init l with Some s => s | None => init end.
Lemma after_reachable l : reachable (after l).
Proof. unfold after. destruct (run init l) eqn:e; [eapply run_reachable; [apply reach_init|eauto]|apply reach_init]. Qed.
(** Modules 3 to 6, class 7 below Object. *)
Definition world : list op := [NewModule; NewModule; NewModule; NewModule; NewClass 1 false].
Definition next (s : state) (o : op) : state := match step s o with State s' => s' | _ => s end.

Fixpoint subseqb (a b : list Z) : bool :=
  match b with
  | [] => match a with [] => true | _ => false end
  | y :: b' => match a with [] => true | x :: a' => if x =? y then subseqb a' b' else subseqb a b' end
  end.
Lemma sub_tail {A} (x : A) a b : subseq (x :: a) b -> subseq a b.
Proof. intros s. remember (x :: a) as z eqn:E. induction s as [l|y l m s IH|y l m s IH]; [discriminate|injection E as -> ->; now constructor|constructor; auto]. Qed.
Lemma subseqb_spec : forall b a, subseqb a b = true <-> subseq a b.
Proof.
  induction b as [|y b IH]; intros [|x a]; cbn [subseqb]; split; intros h; auto; try discriminate; try apply sub_nil; try (inversion h; fail).
  - destruct (Z.eqb_spec x y) as [->|ne]; [apply sub_keep|apply sub_skip]; now apply IH.
  - destruct (Z.eqb_spec x y) as [->|ne].
    + apply IH. inversion h; subst; auto. eapply sub_tail; eauto.
    + apply IH. inversion h; subst; auto. congruence.
Qed.
Lemma nsub a b : subseqb a b = false -> ~ subseq a b. Proof. intros e s. apply subseqb_spec in s. congruence. Qed.
Lemma nin x l : existsb (fun y => y =? x) l = false -> ~ In x l. Proof. apply has_out. Qed.
Lemma yin x l : existsb (fun y => y =? x) l = true -> In x l. Proof. apply has_in. Qed.
Fixpoint nodupb (l : list Z) : bool := match l with [] => true | x :: t => negb (existsb (fun y => y =? x) t) && nodupb t end.
Lemma nodupb_spec l : nodupb l = true -> NoDup l.
Proof. induction l as [|x t IH]; cbn; intros e; constructor; apply andb_true_iff in e as [a b]; auto. apply nin. now apply negb_true_iff. Qed.
Ltac decide_it :=
  match goal with
  | |- reachable _ => apply after_reachable
  | |- subseq _ _ => apply (proj1 (subseqb_spec _ _)); vm_compute; reflexivity
  | |- ~ subseq _ _ => apply nsub; vm_compute; reflexivity
  | |- ~ In _ _ => apply nin; vm_compute; reflexivity
  | |- In _ _ => apply yin; vm_compute; reflexivity
  | |- NoDup _ => apply nodupb_spec; vm_compute; reflexivity
  | |- _ <> _ => vm_compute; discriminate
  | |- _ => vm_compute; reflexivity
  end.
Ltac decide_all := repeat (split; [decide_it|]); decide_it.

Lemma bad_order : exists s c m s', reachable s /\ step s (Include c m) = State s' /\ NoDup (ancestors s m) /\
  NoDup (ancestors s' c) /\ ~ subseq (ancestors s m) (ancestors s' c).
Proof.
  set (s := after (world ++ [Include 7 4; Include 7 3; Include 6 5; Include 6 4])). exists s, 7, 6, (next s (Include 7 6)). decide_all.
Qed.
Lemma bad_position : exists s c m s', reachable s /\ step s (Include c m) = State s' /\ ~ In m (ancestors s c) /\
  subseq [m; c] (ancestors s' c) /\ NoDup (ancestors s' c).
Proof. set (s := after (world ++ [Prepend 7 3])). exists s, 7, 4, (next s (Include 7 4)). decide_all. Qed.
Lemma bad_superclass : exists s c m s' d, reachable s /\ step s (Include c m) = State s' /\ defined s d = true /\
  d <> c /\ ~ In c (ancestors s d) /\ In d (ancestors s c) /\ ancestors s' d <> ancestors s d.
Proof. set (s := after (world ++ [Include 7 4; NewClass 7 false; Include 6 5; Include 6 4])). exists s, 8, 6, (next s (Include 8 6)), 7. decide_all. Qed.
Lemma bad_object : exists s c m s' s'' d, reachable s /\ step s (Include c m) = State s' /\ ~ In m (ancestors s' c) /\
  step s' (Include d c) = State s'' /\ In c (ancestors s'' d) /\ ~ In m (ancestors s'' d).
Proof.
  set (s := after (world ++ [Include 1 4; NewClass 0 false])). exists s, 6, 4, (next s (Include 6 4)), (next (next s (Include 6 4)) (Include 8 6)), 8. decide_all.
Qed.
Lemma bad_panic : exists s c m, reachable s /\ step s (Include c m) = Crashed.
Proof. set (s := after (world ++ [Include 6 4; Prepend 6 4])). exists s, 0, 6. decide_all. Qed.
Lemma bad_reach : exists s c m s' d, reachable s /\ step s (Prepend c m) = State s' /\ is_plain_module (hp s) (head s c) = true /\
  is_class (hp s) (head s d) = true /\ nsing (at_ (hp s) (head s d)) = false /\ In c (ancestors s d) /\ ~ In m (ancestors s' d).
Proof. set (s := after (world ++ [Include 7 4; Prepend 7 3])). exists s, 4, 6, (next s (Prepend 4 6)), 7. decide_all. Qed.
Lemma bad_singleton : exists s c m s' d, reachable s /\ step s (Prepend c m) = State s' /\ is_plain_module (hp s) (head s c) = true /\
  is_class (hp s) (head s d) = true /\ norg (at_ (hp s) (head s d)) = None /\ In c (ancestors s d) /\ ~ In m (ancestors s' d).
Proof. set (s := after (world ++ [NewClass 7 true; Include 8 4])). exists s, 4, 6, (next s (Prepend 4 6)), 8. decide_all. Qed.
Lemma bad_mixed : exists s c m s' d x, reachable s /\ step s (Prepend c m) = State s' /\ is_plain_module (hp s) (head s c) = true /\
  is_class (hp s) (head s d) = true /\ In c (ancestors s d) /\ In x (ancestors s m) /\ In x (ancestors s' c) /\ ~ In x (ancestors s' d).
Proof. set (s := after (world ++ [Include 7 4; Include 6 5])). exists s, 4, 6, (next s (Prepend 4 6)), 7, 5. decide_all. Qed.
Lemma bad_front : exists s c m s' x, reachable s /\ step s (Prepend c m) = State s' /\ In x (ancestors s m) /\
  ~ In x (ancestors s c) /\ subseq [c; x] (ancestors s' c) /\ NoDup (ancestors s' c).
Proof. set (s := after (world ++ [Include 6 5; Include 6 4; Prepend 6 4])). exists s, 7, 6, (next s (Prepend 7 6)), 5. decide_all. Qed.
Lemma bad_later : exists s c m s' d, reachable s /\ step s (Include c m) = State s' /\ is_class (hp s) (head s d) = true /\
  In c (ancestors s d) /\ In m (ancestors s' c) /\ ~ In m (ancestors s' d).
Proof. set (s := after (world ++ [Include 7 4])). exists s, 4, 5, (next s (Include 4 5)), 7. decide_all. Qed.

Lemma weave_facts : forall f n f', weave [] f n = Some f' -> subseq f f' /\ incl n f' /\ incl f' (f ++ n) /\
  (NoDup f -> NoDup f') /\ weave [] f' n = Some f' /\
  (forall a b, n = a ++ b -> (forall x, In x a -> ~ In x f) -> NoDup a -> incl b f -> f' = a ++ f).
Proof.
  intros f n f' e. split; [exact (weave_sub _ _ _ _ e)|]. split; [exact (weave_all _ _ _ _ e)|]. split.
  { intros x hx. apply in_or_app. exact (weave_from _ _ _ _ _ e hx). }
  split; [exact (weave_nodup _ _ _ _ e)|]. split; [exact (weave_again _ _ _ e)|].
  intros a b -> fa nd ib. rewrite weave_front in e; auto.
  - cbn [app] in e. destruct (length b <=? length f)%nat; congruence.
  - cbn. intros x hx. apply in_or_app. right. auto.
Qed.
Lemma good_include : exists s, reachable s /\ ancestors s 5 = [5; 4; 3; 1; 2; 0] /\ ancestors s 4 = [4; 3] /\ step s (Include 3 4) = Raised s.
Proof. exists (after [NewModule; NewModule; NewClass 1 false; Include 4 3; Include 5 4; Include 5 3]). decide_all. Qed.
Lemma good_prepend : exists s, reachable s /\ ancestors s 5 = [4; 5; 3; 1; 2; 0] /\ ancestors s 6 = [6; 4; 5; 3; 1; 2; 0].
Proof. exists (after [NewModule; NewModule; NewClass 1 false; NewClass 5 false; Include 5 3; Prepend 5 4; Prepend 5 4]). decide_all. Qed.
