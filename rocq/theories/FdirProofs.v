(** Proofs about File.dirname. *)
From Coq Require Import ZArith List Bool Lia.
From Verif Require Import FdirModel FdirSpec.
Import ListNotations.
Local Open Scope Z_scope.

Lemma lstrip_slashes : forall k s, lstrip (slashes k ++ s) = lstrip s.
Proof. intros k s; induction k as [|k IH]; cbn; [reflexivity | exact IH]. Qed.
Lemma lstrip_keep : forall s, hd slash s <> slash -> lstrip s = s.
Proof.
  intros [|c r] H; cbn in *; [reflexivity|]. unfold is_slash. destruct (Z.eqb_spec c slash); [contradiction | reflexivity].
Qed.
Lemma rev_slashes : forall k, rev (slashes k) = slashes k.
Proof.
  intros k; unfold slashes; induction k as [|k IH]; cbn; [reflexivity|]. rewrite IH.
  clear IH; induction k as [|k IH]; cbn; [reflexivity | rewrite IH; reflexivity].
Qed.
Lemma hd_rev : forall s, hd slash (rev s) = last s slash.
Proof.
  intros s; induction s as [|x s IH] using rev_ind; [reflexivity|]. rewrite rev_app_distr, last_last. reflexivity.
Qed.
Lemma rstrip_slashes : forall k s, rstrip (s ++ slashes k) = rstrip s.
Proof. intros k s; unfold rstrip. rewrite rev_app_distr, rev_slashes, lstrip_slashes; reflexivity. Qed.
Lemma rstrip_keep : forall s, last s slash <> slash -> rstrip s = s.
Proof. intros s H; unfold rstrip. rewrite lstrip_keep by (rewrite hd_rev; exact H). apply rev_involutive. Qed.

Lemma name_last : forall a b, a_name b -> last (a ++ b) slash <> slash.
Proof.
  intros a b [N F]. destruct (exists_last N) as [b' [c ->]]. rewrite app_assoc, last_last.
  apply Forall_app in F as [_ F]. inversion F; assumption.
Qed.
Lemma behind_none : forall b, Forall (fun c => c <> slash) b -> behind_slash b = None.
Proof.
  intros b F; induction F as [|c r H F IH]; cbn; [reflexivity|].
  unfold is_slash. destruct (Z.eqb_spec c slash); [contradiction | exact IH].
Qed.
Lemma behind_some : forall b r, Forall (fun c => c <> slash) b -> behind_slash (b ++ slash :: r) = Some r.
Proof.
  intros b r F; induction F as [|c b H F IH]; cbn; [reflexivity|].
  unfold is_slash. destruct (Z.eqb_spec c slash); [contradiction | exact IH].
Qed.

(** A path with a name in it is not all slashes. *)
Lemma not_all : forall a b c, a_name b -> forallb is_slash (a ++ b ++ c) = false.
Proof.
  intros a b c [N F]. rewrite !forallb_app. destruct b as [|x b]; [contradiction|]. inversion F; subst. cbn.
  unfold is_slash at 2. destruct (Z.eqb_spec x slash); [contradiction|]. cbn. apply andb_false_r.
Qed.

Lemma once_name : forall a b t, a_name b -> dirname_once (a ++ b ++ slashes t)
  = match behind_slash (rev (a ++ b)) with
    | None => [dot]
    | Some r => match rstrip (rev r) with
                | [] => [slash]
                | c :: p => if is_slash c then slash :: lstrip (c :: p) else c :: p
                end
    end.
Proof.
  intros a b t B; unfold dirname_once. rewrite not_all by exact B. rewrite andb_false_r.
  rewrite app_assoc, rstrip_slashes, rstrip_keep by (apply name_last; exact B).
  destruct (a ++ b) as [|c r] eqn:E; [|reflexivity].
  apply app_eq_nil in E as [_ E]. destruct B as [N _]; contradiction.
Qed.

Lemma name_rev : forall b, a_name b -> Forall (fun c => c <> slash) (rev b).
Proof. intros b [_ F]; apply Forall_rev; exact F. Qed.

(** A name alone is in the current directory. *)
Lemma dirname_plain : forall b t, a_name b -> dirname_once (b ++ slashes t) = [dot].
Proof.
  intros b t B. rewrite <- (app_nil_l (b ++ slashes t)), once_name by exact B. cbn [app].
  rewrite behind_none by (apply name_rev; exact B). reflexivity.
Qed.

Lemma slashes_snoc : forall k, slashes (S k) = slashes k ++ [slash].
Proof. intros k; unfold slashes; induction k as [|k IH]; [reflexivity|]. cbn in *. rewrite <- IH. reflexivity. Qed.

Lemma behind_name : forall a m b, a_name b -> behind_slash (rev ((a ++ slashes (S m)) ++ b)) = Some (rev (a ++ slashes m)).
Proof.
  intros a m b B. rewrite rev_app_distr, slashes_snoc, app_assoc, (rev_app_distr (a ++ slashes m)). cbn [rev app].
  apply behind_some, name_rev; exact B.
Qed.

(** A name behind leading slashes is in the root. *)
Lemma dirname_root : forall k b t, a_name b -> dirname_once (slashes (S k) ++ b ++ slashes t) = [slash].
Proof.
  intros k b t B. rewrite once_name by exact B. rewrite <- (app_nil_l (slashes (S k))), behind_name by exact B.
  rewrite rev_involutive. rewrite rstrip_slashes. reflexivity.
Qed.

(** Otherwise the directory part is left, behind one slash if there were some. *)
Lemma dirname_deep : forall k p m b t, a_body p -> a_name b ->
  dirname_once ((slashes k ++ p ++ slashes (S m)) ++ b ++ slashes t)
  = match k with O => p | S _ => slash :: p end.
Proof.
  intros k p m b t [H L] B. rewrite once_name by exact B. rewrite app_assoc, behind_name by exact B.
  assert (X : last (slashes k ++ p) slash <> slash).
  { rewrite <- hd_rev in *. rewrite rev_app_distr. destruct (rev p); [contradiction | exact L]. }
  rewrite rev_involutive, rstrip_slashes, rstrip_keep by exact X.
  destruct k as [|k].
  - cbn [slashes repeat app]. destruct p as [|c p]; [exfalso; apply H; reflexivity|]. cbn in H.
    unfold is_slash. destruct (Z.eqb_spec c slash); [contradiction | reflexivity].
  - change (slashes (S k) ++ p) with (slash :: slashes k ++ p). change (is_slash slash) with true. cbv iota.
    change (slash :: slashes k ++ p) with (slashes (S k) ++ p). rewrite lstrip_slashes, lstrip_keep by exact H. reflexivity.
Qed.

Lemma dirname_slashes : forall k, dirname_once (slashes (S k)) = [slash].
Proof.
  intros k; unfold dirname_once. replace (forallb is_slash (slashes (S k))) with true; [reflexivity|].
  symmetry; apply forallb_forall. intros x I. apply repeat_spec in I; subst; reflexivity.
Qed.
Lemma dirname_empty : dirname_once [] = [dot].
Proof. reflexivity. Qed.

Lemma eql_ok : forall a b, eql a b = true -> a = b.
Proof.
  intros a; induction a as [|x a IH]; intros [|y b] H; cbn in H; try discriminate; [reflexivity|].
  apply andb_true_iff in H as [H G]. apply Z.eqb_eq in H; subst. rewrite (IH b G); reflexivity.
Qed.

(** A level takes off that many parts. *)
Lemma again_fixed : forall (f : list Z -> list Z) n x, f x = x -> again f n x = x.
Proof. intros f n x H; induction n as [|n IH]; cbn [again]; [reflexivity|]. rewrite H; exact IH. Qed.
Lemma times_again : forall n path, dirname_times n path = again dirname_once n path.
Proof.
  intros n; induction n as [|n IH]; intros path; cbn [dirname_times again]; [reflexivity|]. cbv zeta.
  destruct (eql (dirname_once path) path) eqn:E; [|apply IH].
  apply eql_ok in E. rewrite E. symmetry; apply again_fixed; exact E.
Qed.
Lemma dirname_level : forall path n, dirname path (Z.of_nat n) = Some (again dirname_once n path).
Proof.
  intros path n; unfold dirname. destruct (Z.ltb_spec (Z.of_nat n) 0); [lia|]. rewrite Nat2Z.id, times_again. reflexivity.
Qed.
Lemma dirname_negative : forall path z, z < 0 -> dirname path z = None.
Proof. intros path z H; unfold dirname. destruct (Z.ltb_spec z 0); [reflexivity | lia]. Qed.

(** Every path is of one of these forms. *)
Lemma split_slashes : forall s, exists k r, s = slashes k ++ r /\ (r = [] \/ hd slash r <> slash).
Proof.
  intros s; induction s as [|c s [k [r [E H]]]]; [exists O, []; auto|].
  destruct (Z.eq_dec c slash) as [->|N]; [exists (S k), r; subst; auto | exists O, (c :: s); auto].
Qed.
Lemma split_name : forall s, exists n r, s = n ++ r /\ Forall (fun c => c <> slash) n /\ (r = [] \/ hd dot r = slash).
Proof.
  intros s; induction s as [|c s [n [r [E [F H]]]]]; [exists [], []; auto|].
  destruct (Z.eq_dec c slash) as [->|N]; [exists [], (slash :: s); auto|].
  exists (c :: n), r; subst; auto.
Qed.
Lemma path_forms : forall path,
  path = [] \/ (exists k, path = slashes (S k))
  \/ (exists b t, a_name b /\ path = b ++ slashes t)
  \/ (exists k b t, a_name b /\ path = slashes (S k) ++ b ++ slashes t)
  \/ (exists k p m b t, a_body p /\ a_name b /\ path = (slashes k ++ p ++ slashes (S m)) ++ b ++ slashes t).
Proof.
  intros path.
  destruct (split_slashes (rev path)) as [t [r [E H]]].
  apply (f_equal (@rev Z)) in E. rewrite rev_involutive, rev_app_distr, rev_slashes in E.
  destruct H as [->|H].
  { cbn in E. destruct t as [|t]; [left; exact E | right; left; exists t; exact E]. }
  destruct (split_name r) as [n [q [-> [F G]]]].
  assert (B : a_name (rev n)).
  { split; [|apply Forall_rev; exact F]. intros X. apply (f_equal (@rev Z)) in X. rewrite rev_involutive in X. cbn in X. subst n.
    cbn in H. destruct G as [->|G]; [apply H; reflexivity|]. destruct q as [|c q]; cbn in *; [discriminate G | contradiction]. }
  rewrite rev_app_distr, <- app_assoc in E.
  destruct (split_slashes q) as [m [q' [-> H']]]. rewrite rev_app_distr, rev_slashes in E.
  destruct H' as [->|H'].
  { cbn [rev app] in E. destruct m as [|m].
    - right; right; left. exists (rev n), t. auto.
    - right; right; right; left. exists m, (rev n), t. auto. }
  destruct m as [|m].
  { exfalso. cbn [slashes repeat app] in G. destruct q' as [|c q']; [apply H'; reflexivity|].
    destruct G as [G|G]; [discriminate G | cbn in *; contradiction]. }
  right; right; right; right.
  destruct (split_slashes (rev q')) as [k [p [X Y]]].
  assert (L : last (rev q') slash <> slash) by (rewrite <- hd_rev, rev_involutive; exact H').
  rewrite X in E, L.
  assert (P : p <> []).
  { intros ->. rewrite app_nil_r, <- hd_rev, rev_slashes in L. destruct k; apply L; reflexivity. }
  exists k, p, m, (rev n), t. split; [|split; [exact B | rewrite E, <- !app_assoc; reflexivity]].
  split.
  - destruct Y as [Y|Y]; [contradiction | exact Y].
  - rewrite <- hd_rev in *. rewrite rev_app_distr in L. destruct (rev p) eqn:R; [|exact L].
    apply (f_equal (@rev Z)) in R. rewrite rev_involutive in R. contradiction.
Qed.
