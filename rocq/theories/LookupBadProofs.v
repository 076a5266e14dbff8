(** Histories after which lookup does not do what it should. *)
From Coq Require Import ZArith List Bool Lia.
From Verif Require Import ClassModel ClassSpec ClassProofs ClassStepProofs LookupModel LookupSpec LookupWalkProofs LookupCacheProofs LookupProofs.
Import ListNotations.
Open Scope Z_scope.

Definition lived (l : list mop) : world := match mrun start l with Some w => w | None => start end.
Definition next (w : world) (o : mop) : world := match mstep w o with Fine w1 | Raise w1 => w1 | Broken => w end.
Lemma short_sparse l : (Z.of_nat (length l) <? TWO32) = true -> sparse l.
Proof. intros q a b c e _. apply Z.ltb_lt in q. rewrite e, !app_length, !Nat2Z.inj_add in q. lia. Qed.
Ltac show :=
  repeat match goal with
  | |- _ /\ _ => split
  | |- sparse _ => apply short_sparse; vm_compute; reflexivity
  | |- _ <> _ => vm_compute; discriminate
  | |- _ => vm_compute; reflexivity
  end.

(** A, and B < A. *)
Definition ab : list mop := [Classes (NewClass OBJECT false); Classes (NewClass 5 false)].

(** [private :m] in B, then A's m removed. *)
Definition gone : list mop := ab ++ [Def 5 70 100 Public; SetVis 6 70 Private; Remove 5 70].
Lemma bad_orphan : after_history gone (lived gone) /\ sparse gone /\ (forall a, ~ exists f v, defines (wt (lived gone)) 70 a f v) /\
  answer (fst (look (lived gone) 6 70)) = Some (100, Private, 6).
Proof.
  split; [vm_compute; reflexivity|]. split; [show|]. split; [|vm_compute; reflexivity].
  assert (E : wt (lived gone) = put (put (put (fun _ _ => None) 5 70 (Some (mke 5 (Some 100) Public false))) 6 70 (Some (mke 6 (Some 100) Private true))) 5 70 None)
    by (vm_compute; reflexivity).
  rewrite E. intros a (f & v & e & d1 & d2 & d3 & d4). unfold put in d1. rewrite Z.eqb_refl, !andb_true_r in d1.
  destruct (a =? 5); [discriminate|]. destruct (a =? 6); [|discriminate]. injection d1 as <-. discriminate.
Qed.

(** Undefined in B, then removed: A's method is back without an error. *)
Definition taken : list mop := ab ++ [Def 5 70 100 Public; Undef 6 70].
Lemma bad_remove : exists w', after_history taken (lived taken) /\ sparse taken /\ undefines (wt (lived taken)) 70 6 /\
  mstep (lived taken) (Remove 6 70) = Fine w' /\ answer (find w' 6 70) = Some (100, Public, 5).
Proof.
  exists (next (lived taken) (Remove 6 70)). split; [vm_compute; reflexivity|]. split; [show|]. split; [|split; vm_compute; reflexivity].
  exists (mke 6 None Undefined false). repeat split.
Qed.

(** A module that undefines what a module it includes defines. *)
Definition modules_ : list mop :=
  [Classes NewModule; Classes NewModule; Classes (Include 6 5); Def 5 70 100 Public; Undef 6 70].
Lemma bad_method_defined : after_history modules_ (lived modules_) /\ sparse modules_ /\ defined (ws (lived modules_)) 6 = true /\
  find (lived modules_) 6 70 = None /\ method_defined (lived modules_) 6 70 = Some Public.
Proof. show. Qed.

(** A method of Object, private for false. *)
Definition bools : list mop := [Def OBJECT 70 100 Public; SetVis FALSE 70 Private].
Lemma bad_bool : exists e f, after_history bools (lived bools) /\ sparse bools /\ fst (look_bool (lived bools) 70) = Some e /\
  find (lived bools) FALSE 70 = Some f /\ evis e = Public /\ evis f = Private.
Proof. exists (mke 1 (Some 100) Public false), (mke 4 (Some 100) Private false). show. Qed.

(** [c = Class.allocate], a lookup, then [c.initialize(A)]. *)
Definition one : list mop := [Classes (NewClass OBJECT false); Def 5 70 100 Public].
Definition born : world := initialize (snd (look (allocate (lived one)) 6 70)) 6 5.
Lemma bad_allocate : after_history one (lived one) /\ sparse one /\ ancestors (ws born) 6 = [6; 5; 1; 2; 0] /\ fst (look born 6 70) = None /\
  answer (find born 6 70) = Some (100, Public, 5).
Proof. show. Qed.

(** 2^32 definitions between two lookups. *)
Lemma many_defs c n f v k : real v = true -> forall w, defined (ws w) c = true ->
  exists w', mrun w (repeat (Def c n f v) k) = Some w' /\ ws w' = ws w /\ wc w' = wc w /\
    wver w' mod TWO32 = (wver w + Z.of_nat k) mod TWO32 /\ (k <> O -> wt w' c n = Some (mke c (Some f) v false) /\ 0 <= wver w' < TWO32).
Proof.
  intros r. induction k as [|k IH]; intros w d; [exists w; cbn; rewrite Z.add_0_r; repeat split; auto; easy|].
  cbn [repeat mrun mstep]. rewrite d, r. cbn [andb].
  destruct (IH (insert_method w c n (mke c (Some f) v false)) d) as (w' & e1 & e2 & e3 & e4 & e5). exists w'. split; auto. split; auto. split; auto. split.
  - rewrite e4. cbn [insert_method with_tables bump wver]. rewrite Zplus_mod_idemp_l. f_equal. lia.
  - intros _. destruct k; [|now apply e5]. cbn [repeat mrun] in e1. injection e1 as <-. cbn [insert_method with_tables bump wt wver]. unfold put.
    rewrite !Z.eqb_refl. split; auto. apply Z.mod_pos_bound. reflexivity.
Qed.
Definition before : list mop := one ++ [Look 5 70].
Definition long : list mop := before ++ repeat (Def 5 70 200 Public) (Z.to_nat TWO32).
Lemma bad_wrap : exists w, after_history long w /\ defined (ws w) 5 = true /\ answer (find w 5 70) = Some (200, Public, 5) /\
  answer (fst (look w 5 70)) = Some (100, Public, 5).
Proof.
  destruct (many_defs 5 70 200 Public (Z.to_nat TWO32) eq_refl (lived before) ltac:(vm_compute; reflexivity)) as (w & e1 & e2 & e3 & e4 & e5).
  exists w. rewrite Z2Nat.id in e4 by discriminate. destruct e5 as (e5 & e6); [intros q; apply (f_equal Z.of_nat) in q; rewrite Z2Nat.id in q by discriminate; discriminate|].
  assert (V : wver w = wver (lived before)).
  { rewrite <- (Z.mod_small (wver w) TWO32) by auto. rewrite e4. vm_compute. reflexivity. }
  split; [|split; [rewrite e2; vm_compute; reflexivity|split]].
  - unfold after_history, long. rewrite mrun_app. replace (mrun start before) with (Some (lived before)) by (vm_compute; reflexivity). exact e1.
  - rewrite find_positions, e2. replace (positions (hp (ws (lived before))) (head (ws (lived before)) 5)) with [5; 1; 2; 0] by (vm_compute; reflexivity).
    cbn [lwalk]. now rewrite e5.
  - unfold look. rewrite e3, V. vm_compute. reflexivity.
Qed.

(** * Call sites *)
(** A protected method called by an object that may and then by one that may not. *)
Definition may (f : Z) : bool := true.
Definition mustnot (f : Z) : bool := false.
Definition guarded : list mop := [Classes (NewClass OBJECT false); Def 5 70 100 Protected].
Definition called (caller : Z -> bool) : reached * option icache * world := vm_call (lived guarded) None 70 false caller 5.
Lemma site_ops n fc l2 w2 k2 : forall l w k w1, mrun w l = Some w1 -> site n fc w1 k l2 w2 k2 -> site n fc w k (map Run l ++ l2) w2 k2.
Proof.
  induction l as [|o l IH]; intros w k w1 e S; cbn [map app mrun] in *; [injection e as <-; auto|].
  destruct (mstep w o) as [w3|w3|] eqn:q; try discriminate; eapply site_run; eauto.
Qed.
Lemma bad_protected : exists l w k k1 w1, site 70 false start None l w k /\ (length l <= 3)%nat /\ defined (ws w) 5 = true /\
  vm_call w k 70 false mustnot 5 = (Body 100, k1, w1) /\ dispatch w 70 false mustnot 5 = Missing.
Proof.
  exists (map Run guarded ++ [Call 5 may]), (snd (called may)), (snd (fst (called may))), (snd (fst (called may))), (snd (called may)).
  split; [|split; [cbn; lia|show]]. apply (site_ops _ _ _ _ _ guarded start None (lived guarded)); [vm_compute; reflexivity|].
  eapply (site_call _ _ _ _ 5 may (fst (fst (called may)))); [vm_compute; reflexivity|vm_compute; reflexivity|apply site_nil].
Qed.
Lemma bad_refused : exists l w k k1 w1, site 70 false start None l w k /\ (length l <= 3)%nat /\ defined (ws w) 5 = true /\
  vm_call w k 70 false may 5 = (Missing, k1, w1) /\ dispatch w 70 false may 5 = Body 100.
Proof.
  exists (map Run guarded ++ [Call 5 mustnot]), (snd (called mustnot)), (snd (fst (called mustnot))), (snd (fst (called mustnot))), (snd (called mustnot)).
  split; [|split; [cbn; lia|show]]. apply (site_ops _ _ _ _ _ guarded start None (lived guarded)); [vm_compute; reflexivity|].
  eapply (site_call _ _ _ _ 5 mustnot (fst (fst (called mustnot)))); [vm_compute; reflexivity|vm_compute; reflexivity|apply site_nil].
Qed.
(** A compiled call of a method that is made private later. *)
Definition open : list mop := [Classes (NewClass OBJECT false); Def 5 70 100 Public].
Definition compiled : option unit_ * world := compile (lived open) 70 false 5.
Definition closed : world := next (snd compiled) (SetVis 5 70 Private).
Lemma csite_ops n fc l2 w2 k2 : forall l w k w1, mrun w l = Some w1 -> csite n fc w1 k l2 w2 k2 -> csite n fc w k (map CRun l ++ l2) w2 k2.
Proof.
  induction l as [|o l IH]; intros w k w1 e S; cbn [map app mrun] in *; [injection e as <-; auto|].
  destruct (mstep w o) as [w3|w3|] eqn:q; try discriminate; eapply csite_run; eauto.
Qed.
Lemma bad_private : exists l w u u1 w1, csite 70 false start None l w u /\ (length l <= 4)%nat /\ defined (ws w) 5 = true /\
  enter w u 70 false mustnot 5 = (Body 100, u1, w1) /\ dispatch w 70 false mustnot 5 = Missing /\
  exists e, find w 5 70 = Some e /\ evis e <> Protected.
Proof.
  exists (map CRun open ++ [Compile 5; CRun (SetVis 5 70 Private)]), closed, (fst compiled),
    (snd (fst (enter closed (fst compiled) 70 false mustnot 5))), (snd (enter closed (fst compiled) 70 false mustnot 5)).
  split; [|split; [cbn; lia|split; [vm_compute; reflexivity|split; [vm_compute; reflexivity|split; [vm_compute; reflexivity|]]]; exists (mke 5 (Some 100) Private false); show]]. apply (csite_ops _ _ _ _ _ open start None (lived open)); [vm_compute; reflexivity|].
  eapply csite_compile; [vm_compute; reflexivity| |eapply csite_run; [|apply csite_nil]].
  - vm_compute; reflexivity.
  - left. vm_compute. reflexivity.
Qed.
Definition compiled2 : option unit_ * world := compile (lived guarded) 70 false 5.
Lemma bad_compiled_protected : exists l w u u1 w1, csite 70 false start None l w u /\ (length l <= 3)%nat /\ defined (ws w) 5 = true /\
  enter w u 70 false mustnot 5 = (Body 100, u1, w1) /\ dispatch w 70 false mustnot 5 = Missing.
Proof.
  exists (map CRun guarded ++ [Compile 5]), (snd compiled2), (fst compiled2), (fst compiled2), (snd compiled2).
  split; [|split; [cbn; lia|show]]. apply (csite_ops _ _ _ _ _ guarded start None (lived guarded)); [vm_compute; reflexivity|].
  eapply csite_compile; [vm_compute; reflexivity| |apply csite_nil]. vm_compute; reflexivity.
Qed.

(** * super *)
(** M is before and after C in C's ancestors, and C undefines the method. *)
Definition twice : list mop :=
  [Classes (NewClass OBJECT false); Classes NewModule; Classes (NewClass 5 false); Def 5 70 100 Public; Undef 7 70;
   Def 6 70 200 Public; Classes (Include 7 6); Classes (Prepend 7 6)].
Lemma bad_super : exists l1 x l2, let w := lived twice in let a := head (ws w) 7 in
  after_history twice w /\ sparse twice /\ a :: above (hp (ws w)) a = l1 ++ x :: l2 /\
  at_position (fun _ => None) (hp (ws w)) (wt w) 70 200 x = true /\
  length (filter (at_position (fun _ => None) (hp (ws w)) (wt w) 70 200) l1) = O /\
  body_in (hp (ws w)) (wt w) 70 l2 = None /\
  super_at (fun _ => None) (fun _ => []) (hp (ws w)) (wt w) a 200 70 (Some 1%nat) = Some 100.
Proof.
  set (a := head (ws (lived twice)) 7). set (l := a :: above (hp (ws (lived twice))) a).
  exists (firstn 1 l), (nth 1 l O), (skipn 2 l). cbv zeta. split; [vm_compute; reflexivity|]. show.
Qed.
