(** Sends that do not run what they should: witnesses. *)
From Coq Require Import ZArith List Bool Lia.
From Verif Require Import ClassModel LookupModel LookupSpec LookupBadProofs ArgModel ArgSpec ArgKwProofs ArgFwdProofs ArgBadProofs SendModel SendSpec.
Import ListNotations.
Open Scope Z_scope.

Definition whatever (w : world) (g : list Z) (n : Z) : Prop := True.
Lemma sends_ops mm l2 g2 s2 w2 : forall l w g s w1, mrun w l = Some w1 -> sends mm whatever w1 g s l2 w2 g2 s2 ->
  sends mm whatever w g s (map SRun l ++ l2) w2 g2 s2.
Proof.
  induction l as [|o l IH]; intros w g s w1 e S; cbn [map app mrun] in *; [injection e as <-; auto|].
  destruct (mstep w o) as [w3|w3|] eqn:q; try discriminate; eapply sends_run; eauto.
Qed.
Definition first_send (g : list Z) (w : world) (c n : Z) : runs * sendsite * world := send_at 90 g w fresh_site c n.
Lemma one_send g l c n : mrun start l = Some (lived l) -> n <> 0 -> defined (ws (lived l)) c = true ->
  (forall k, In k g -> k = BOOL \/ defined (ws (lived l)) k = true) ->
  sends 90 whatever start [] fresh_site (map SRun l ++ [SCompile g; SSend c n])
    (snd (first_send g (lived l) c n)) g (snd (fst (first_send g (lived l) c n))).
Proof.
  intros e nz d G. apply (sends_ops 90 _ _ _ _ l start [] fresh_site (lived l) e). apply sends_compile; [exact G|].
  destruct (first_send g (lived l) c n) as [[r s1] w1] eqn:q. cbn [fst snd]. eapply sends_send; eauto; [exact I|]. apply sends_nil.
Qed.

(** Two classes behind one guard. *)
Definition two : list mop := [Classes (NewClass OBJECT false); Classes (NewClass OBJECT false); Def 5 70 100 Public; Def 6 70 200 Public].
Lemma bad_set : exists l w g s, sends 90 whatever start [] fresh_site l w g s /\ (length l <= 6)%nat /\ defined (ws w) 6 = true /\
  fst (fst (send_at 90 g w s 6 70)) = Runs 100 /\ says 90 w 6 70 = Runs 200.
Proof.
  exists (map SRun two ++ [SCompile [5; 6]; SSend 5 70]), (snd (first_send [5; 6] (lived two) 5 70)), [5; 6], (snd (fst (first_send [5; 6] (lived two) 5 70))).
  split; [|split; [cbn; lia|show]]. apply one_send; [vm_compute; reflexivity|discriminate|vm_compute; reflexivity|].
  intros k [<-|[<-|[]]]; right; vm_compute; reflexivity.
Qed.
(** true and false share one class in inline caches. *)
Definition booleans : list mop := [Def TRUE 70 100 Public; Def FALSE 70 200 Public].
Lemma bad_bool : exists l w s, sends 90 whatever start [] fresh_site l w [BOOL] s /\ (length l <= 4)%nat /\ defined (ws w) FALSE = true /\
  fst (fst (send_at 90 [BOOL] w s FALSE 70)) = Runs 100 /\ says 90 w FALSE 70 = Runs 200.
Proof.
  exists (map SRun booleans ++ [SCompile [BOOL]; SSend TRUE 70]), (snd (first_send [BOOL] (lived booleans) TRUE 70)), (snd (fst (first_send [BOOL] (lived booleans) TRUE 70))).
  split; [|split; [cbn; lia|show]]. apply one_send; [vm_compute; reflexivity|discriminate|vm_compute; reflexivity|].
  intros k [<-|[]]; now left.
Qed.
(** method_missing, which is name 90. *)
Definition ghost : list mop := [Classes (NewClass OBJECT false); Def 5 90 300 Private].
Lemma bad_missing : exists l w s, sends 90 whatever start [] fresh_site l w [5] s /\ Forall one_class l /\ (length l <= 4)%nat /\ defined (ws w) 5 = true /\
  fst (fst (send_at 90 [5] w s 5 70)) = NoMethod /\ says 90 w 5 70 = RunsMissing 300 /\ fst (interpreted 90 w 5 70) = RunsMissing 300.
Proof.
  exists (map SRun ghost ++ [SCompile [5]; SSend 5 70]), (snd (first_send [5] (lived ghost) 5 70)), (snd (fst (first_send [5] (lived ghost) 5 70))).
  split; [|split; [|split; [cbn; lia|show]]].
  - apply one_send; [vm_compute; reflexivity|discriminate|vm_compute; reflexivity|]. intros k [<-|[]]; right; vm_compute; reflexivity.
  - repeat constructor. exists 5. split; [reflexivity|discriminate].
Qed.

Open Scope nat_scope.
(** The numbers of the ArgumentError change places. *)
Lemma bad_numbers : let p := par 2 0 None 0 [] false false in
  send_simple no_conv p [Junk; Junk] (compile_site (bare [o 1]) [] false) [o 1] = Err (EArity 2) /\
  wrong no_conv p (bare [o 1]) [] [Junk; Junk] (Err (EArity 2)).
Proof.
  split; [reflexivity|]. apply (wrong_intro _ _ _ _ _ _ (inr (EArity 1))); [|exact I|cbn; congruence].
  apply (cr_arity no_conv _ _ _ [o 1] [] [o 1]); try reflexivity; [now apply as_not|]. intros [a _]. cbn in a. lia.
Qed.

(** [send( *a)] with keywords in flight: [a] is [[:m, {k: 5}]] of a ruby2_keywords method. *)
Definition kwm : params := par 0 0 None 0 [(1%Z, false)] false false.
Definition flagged : list value := [VHash true [(KSym 1%Z, o 5)]].
Lemma bad_flag : forall v b, let a := mkarr (v :: flagged) b (Some v) in
  array_ok a /\ send_splat_args kwm [Junk] (OArr a) = Some (Err (EArity 1)) /\
  builtin_splat_args kwm [Junk] (OArr a) = Some (Ok [Val (o 5)]) /\
  call_result no_conv kwm [(VArr flagged, true)] [] (inl [Val (o 5)]) /\
  wrong no_conv kwm [(VArr flagged, true)] [] [Junk] (Err (EArity 1)).
Proof.
  intros v b a. split; [reflexivity|]. split; [reflexivity|]. split; [reflexivity|].
  assert (C : call_result no_conv kwm [(VArr flagged, true)] [] (inl ([] ++ [Val (o 5)]))).
  { apply (cr_bound no_conv kwm _ _ [] [(KSym 1%Z, o 5)] [] [] [Val (o 5)]); try reflexivity.
    - discriminate.
    - apply as_several. intros x. discriminate.
    - change (@nil cell) with (layout kwm [] [] [] []). apply pos_method; [reflexivity| |cutting].
      split; cbn; lia.
    - apply kwr_plain; reflexivity. }
  split; [exact C|]. apply (wrong_intro _ _ _ _ _ _ _ C); [apply closed_last, not_kwrest_obj|]. cbn. discriminate.
Qed.

(** [a.pop; send( *a)] and [send( *:sym)]. *)
Lemma bad_empty : forall name_of v n, name_of v = Some n -> let a := mkarr [] false (Some v) in
  array_ok a /\ splat_name name_of (OArr a) = Named n /\ builtin_name name_of (OArr a) = NoName /\
  forall p f, send_splat_args p f (OArr a) = None.
Proof. intros name_of v n E a. repeat split; [discriminate|]. unfold splat_name. cbn. now rewrite E. Qed.
Lemma bad_operand : forall name_of z n, name_of (o z) = Some n ->
  splat_name name_of (OVal (o z)) = Named n /\ builtin_name name_of (OVal (o z)) = Named n /\
  builtin_splat_args (par 0 0 None 0 [] false false) [] (OVal (o z)) = Some (Ok []) /\
  forall p f, send_splat_args p f (OVal (o z)) = None.
Proof. intros name_of z n E. unfold splat_name, builtin_name. cbn. rewrite E. repeat split. Qed.
