(** Where ranges differ from Ruby. *)
From Coq Require Import List Bool ZArith QArith Lia Lqa.
From Verif Require Import RangeModel RangeSpec RangeProofs RangeIter RangeSearch.
Import ListNotations.
Local Open Scope Z_scope.

Lemma covers_too_much : ~ forall s v q, finite s = true -> finite v = true -> beg v = Some (F q) -> cover_range s v = true -> forall x, inside v x -> inside s x.
Proof.
  intros H. specialize (H (mkR (Some (I 1)) (Some (I 2)) false) (mkR (Some (F (3 # 2))) (Some (I 3)) true) (3 # 2)%Q eq_refl eq_refl eq_refl eq_refl (5 # 2)%Q).
  destruct H as [_ H]; [split; vm_compute; (reflexivity || discriminate)|]. vm_compute in H. now apply H.
Qed.
Lemma max_too_low : ~ forall r m x y, finite r = true -> max r = Val m -> value m = Some x -> beg r <> None -> (forall b, beg r <> Some (I b)) -> inside r y -> (y <= x)%Q.
Proof.
  intros H. specialize (H (mkR (Some (F (3 # 2))) (Some (I 3)) true) (I 2) 2%Q (5 # 2)%Q eq_refl eq_refl eq_refl ltac:(discriminate) ltac:(discriminate)).
  assert (5 # 2 <= 2)%Q; [apply H; split; vm_compute; (reflexivity || discriminate)|now apply H0].
Qed.
Lemma max_float_end : ~ forall r q, fin r = Some (F q) -> excl r = true -> (forall b, beg r = Some b -> cmp b (F q) <> Some Gt) -> max r = Err.
Proof.
  intros H. specialize (H (mkR (Some (F (3 # 2))) (Some (F (3 # 2))) true) (3 # 2)%Q eq_refl eq_refl). cbn in H. 
  assert (@Nil num = Err); [apply H|discriminate]. intros b E. injection E as <-. discriminate.
Qed.
Lemma max_n_outside : ~ forall fuel r n l z, finite r = true -> max_n fuel r n = Done l -> In z l -> has r z.
Proof.
  intros H. specialize (H 9%nat (mkR (Some (F (3 # 2))) (Some (I 3)) false) 5 [3; 2; 1; 0; -1] (-1) eq_refl eq_refl ltac:(cbn; tauto)). destruct H as [H _]. vm_compute in H. now apply H.
Qed.
Lemma map_float_end : ~ forall fuel r l, each fuel r = Done l -> elements r = Val l.
Proof. intros H. specialize (H 9%nat (mkR (Some (I 1)) (Some (F (7 # 2))) false) [1; 2; 3] eq_refl). discriminate H. Qed.
Lemma map_big : ~ forall fuel r l b e, beg r = Some (I b) -> fin r = Some (I e) -> each fuel r = Done l -> elements r = Val l.
Proof. intros H. specialize (H 9%nat (mkR (Some (I (2 ^ 62))) (Some (I (2 ^ 62 + 1))) false) [2 ^ 62; 2 ^ 62 + 1] (2 ^ 62) (2 ^ 62 + 1) eq_refl eq_refl eq_refl). vm_compute in H. discriminate H. Qed.
Lemma count_float_end : ~ forall fuel r l, each fuel r = Done l -> count r = Val (Some (Z.of_nat (length l))).
Proof. intros H. specialize (H 9%nat (mkR (Some (I 1)) (Some (F (7 # 2))) false) [1; 2; 3] eq_refl). discriminate H. Qed.
Lemma last_float_end : ~ forall fuel r l n, 0 <= n -> each fuel r = Done l -> exists l', last r n = Val l'.
Proof. intros H. destruct (H 9%nat (mkR (Some (I 1)) (Some (F (7 # 2))) false) [1; 2; 3] 2 ltac:(lia) eq_refl) as (l' & E). discriminate E. Qed.
Lemma probes_forever hi : forall fuel step, probe_down fuel (fun _ => Equal) hi step = None.
Proof. induction fuel; intros; cbn; auto. Qed.
Lemma never_found : ~ forall p e, signs p -> p e = Equal -> exists fuel, bsearch fuel p None (Some e) false <> Running.
Proof.
  intros H. destruct (H (fun _ => Equal) 0) as (fuel & F); [split; [tauto|lia]|reflexivity|]. apply F. unfold bsearch. cbn [option_map]. now rewrite probes_forever.
Qed.
Lemma zero_offered : ~ forall fuel p b e z, float b -> float e -> bsearch_float fuel p b e true = Found z -> fval z < fval e.
Proof.
  intros H. specialize (H 70%nat (fun x => if x =? 2 ^ 63 then Sat else Unsat) (13830554455654793216) 0 (2 ^ 63)). 
  assert (fval (2 ^ 63) < fval 0); [apply H; [vm_compute; intuition congruence|vm_compute; intuition congruence|vm_compute; reflexivity]|discriminate].
Qed.
Lemma zeros_missed : ~ forall fuel b e, float b -> float e -> fval b = fval e -> (66 <= fuel)%nat -> bsearch_float fuel (fun _ => Sat) b e false <> Nothing.
Proof.
  intros H. apply (H 66%nat 0 (2 ^ 63)); try reflexivity; [vm_compute; intuition congruence|vm_compute; intuition congruence].
Qed.
