(** Proof that a read is interrupted by a signal and by nothing else. *)

From Coq Require Import ZArith Bool List Lia.
From Verif Require Import RbufModel RbufSpec.
Import ListNotations.
Local Open Scope Z_scope.

Definition uses (i : bool) (evs evs' : list event) : Prop := exists used, evs = used ++ evs' /\ stops i used.

Lemma uses_nil evs : uses false evs evs.
Proof. exists []. split; [reflexivity|constructor]. Qed.
Lemma uses_trans i a b c : uses false a b -> uses i b c -> uses i a c.
Proof.
  intros (u & -> & U) (v & -> & V). exists (u ++ v). split; [apply app_assoc|]. cbn in U. destruct i; cbn in *.
  - destruct V as (w & e & -> & W & E). exists (u ++ w), e. split; [apply app_assoc|]. split; [|exact E].
    apply Forall_app. auto.
  - apply Forall_app. auto.
Qed.
Lemma uses_quiet e evs : ~ signals e -> uses false (e :: evs) evs.
Proof. intros N. exists [e]. split; [reflexivity|]. constructor; [exact N|constructor]. Qed.
Lemma uses_signal e evs : signals e -> uses true (e :: evs) evs.
Proof. intros N. exists [e]. split; [reflexivity|]. exists [], e. repeat split; [constructor|exact N]. Qed.

Definition of_att (a : att) : bool := match a with AIntr b => b | _ => false end.

Ltac not_sig := intros [Q|Q]; discriminate Q.
Lemma direct_uses want evs s a s' evs' : direct_read want evs s = Some (a, s', evs') -> uses (of_att a) evs evs'.
Proof.
  unfold direct_read. destruct evs as [|[b|[n| | |] b] evs]; try discriminate; intros E; injection E as <- <- <-; cbn [of_att].
  - apply uses_quiet. not_sig.
  - destruct b; [apply uses_signal; right; reflexivity|apply uses_quiet; not_sig].
  - apply uses_quiet. not_sig.
  - apply uses_quiet. not_sig.
Qed.
Lemma fill_uses evs s a s' evs' : fill_buf evs s = Some (a, s', evs') -> uses (of_att a) evs evs'.
Proof.
  unfold fill_buf. destruct (Nat.leb _ _).
  - destruct (direct_read capa evs s) as [[[[]]]|] eqn:D; intros E; try discriminate; injection E as <- <- <-;
      apply direct_uses in D; exact D.
  - intros E. injection E as <- <- <-. apply uses_nil.
Qed.
Lemma buffered_uses want evs s a s' evs' : buffered_read want evs s = Some (a, s', evs') -> uses (of_att a) evs evs'.
Proof.
  unfold buffered_read. destruct (_ && _); [apply direct_uses|].
  destruct (fill_buf evs s) as [[[[]]]|] eqn:D; intros E; try discriminate; injection E as <- <- <-;
      apply fill_uses in D; exact D.
Qed.
Lemma attempt_uses exact want evs s a s' evs' : attempt exact want evs s = Some (a, s', evs') -> uses (of_att a) evs evs'.
Proof. destruct exact; [apply direct_uses|apply buffered_uses]. Qed.

Definition is_intr (a : att) : bool := match a with AIntr _ => true | _ => false end.
Lemma step_uses exact want f : forall evs s a s' evs', read_step f exact want evs s = Some (a, s', evs') ->
  uses (is_intr a) evs evs'.
Proof.
  induction f as [|f IH]; intros evs s a s' evs' E; [discriminate|]. cbn [read_step] in E.
  destruct (attempt exact want evs s) as [[[x s1] evs1]|] eqn:A; [|discriminate]. apply attempt_uses in A.
  destruct x as [b|[]| |]; try (injection E as <- <- <-; exact A).
  apply IH in E. exact (uses_trans _ _ _ _ A E).
Qed.
Lemma retry_uses f : forall evs s a s' evs', fill_retry f evs s = Some (a, s', evs') -> uses (is_intr a) evs evs'.
Proof.
  induction f as [|f IH]; intros evs s a s' evs' E; [discriminate|]. cbn [fill_retry] in E.
  destruct (fill_buf evs s) as [[[x s1] evs1]|] eqn:A; [|discriminate]. apply fill_uses in A.
  destruct x as [b|[]| |]; try (injection E as <- <- <-; exact A).
  apply IH in E. exact (uses_trans _ _ _ _ A E).
Qed.

Definition of_fin (f : fin) : bool := match f with FSig => true | _ => false end.
Lemma of_fin_of a : of_fin (fin_of a) = is_intr a.
Proof. destruct a; reflexivity. Qed.
Lemma poll_quiet evs : uses false (P false :: evs) evs.
Proof. apply uses_quiet. not_sig. Qed.
Lemma poll_signal evs : uses true (P true :: evs) evs.
Proof. apply uses_signal. left. reflexivity. Qed.

Lemma upto_uses exact len f : forall out evs s fi b s' evs',
  read_upto f exact len out evs s = Some (fi, b, s', evs') -> uses (of_fin fi) evs evs'.
Proof.
  induction f as [|f IH]; intros out evs s fi b s' evs' E; [discriminate|]. cbn [read_upto] in E.
  destruct (Nat.leb _ _); [injection E as <- <- <- <-; apply uses_nil|].
  destruct evs as [|[[]|] evs]; try discriminate; [injection E as <- <- <- <-; apply poll_signal|].
  apply uses_trans with (1 := poll_quiet evs).
  destruct (read_step (S f) exact _ evs s) as [[[x s1] evs1]|] eqn:A; [|discriminate]. apply step_uses in A.
  destruct x as [[|c r]|[]| |]; try (injection E as <- <- <- <-; exact A).
  apply IH in E. exact (uses_trans _ _ _ _ A E).
Qed.
Lemma all_uses f : forall out evs s fi b s' evs',
  read_all f out evs s = Some (fi, b, s', evs') -> uses (of_fin fi) evs evs'.
Proof.
  induction f as [|f IH]; intros out evs s fi b s' evs' E; [discriminate|]. cbn [read_all] in E.
  destruct evs as [|[[]|] evs]; try discriminate; [injection E as <- <- <- <-; apply poll_signal|].
  apply uses_trans with (1 := poll_quiet evs).
  destruct (read_step (S f) false _ evs s) as [[[x s1] evs1]|] eqn:A; [|discriminate]. apply step_uses in A.
  destruct x as [[|c r]|[]| |]; try (injection E as <- <- <- <-; exact A).
  apply IH in E. exact (uses_trans _ _ _ _ A E).
Qed.
Lemma until_uses d f : forall out evs s fi b s' evs',
  read_until f d out evs s = Some (fi, b, s', evs') -> uses (of_fin fi) evs evs'.
Proof.
  induction f as [|f IH]; intros out evs s fi b s' evs' E; [discriminate|]. cbn [read_until] in E.
  destruct evs as [|[[]|] evs]; try discriminate; [injection E as <- <- <- <-; apply poll_signal|].
  apply uses_trans with (1 := poll_quiet evs).
  destruct (fill_buf evs s) as [[[x s1] evs1]|] eqn:A; [|discriminate]. apply fill_uses in A.
  destruct x as [avail|[]| |]; try (injection E as <- <- <- <-; exact A).
  - destruct (find_byte d avail); [injection E as <- <- <- <-; exact A|].
    destruct avail; [injection E as <- <- <- <-; exact A|]. apply IH in E. exact (uses_trans _ _ _ _ A E).
  - apply IH in E. exact (uses_trans _ _ _ _ A E).
Qed.

Definition is_sig (r : result) : bool := match r with Sig => true | _ => false end.
Lemma conclude_uses evs x r s' evs' :
  (forall fi b s1 e1, x = Some (fi, b, s1, e1) -> uses (of_fin fi) evs e1) ->
  option_map conclude x = Some (r, s', evs') -> uses (is_sig r) evs evs'.
Proof.
  intros H E. destruct x as [[[[fi b] s1] e1]|]; [|discriminate]. specialize (H _ _ _ _ eq_refl).
  cbn in E. destruct fi; injection E as <- <- <-; exact H.
Qed.
Lemma underlying_uses f len exact evs s r s' evs' :
  read_underlying f len exact evs s = Some (r, s', evs') -> uses (is_sig r) evs evs'.
Proof.
  unfold read_underlying. apply conclude_uses. intros fi b s1 e1 E.
  destruct len; [|apply all_uses in E; exact E].
  destruct (kind _), exact; apply upto_uses in E; exact E.
Qed.
Lemma more_uses f out len exact evs s r s' evs' :
  read_more f out len exact evs s = Some (r, s', evs') -> uses (is_sig r) evs evs'.
Proof.
  unfold read_more. destruct (read_underlying f len exact evs s) as [[[x s1] e1]|] eqn:U; [|discriminate].
  apply underlying_uses in U. destruct x; intros E; injection E as <- <- <-; exact U.
Qed.
Lemma impl_uses f len exact evs s r s' evs' :
  read_impl f len exact evs s = Some (r, s', evs') -> uses (is_sig r) evs evs'.
Proof.
  unfold read_impl. destruct (pushback s); [apply underlying_uses|].
  destruct len; [|apply more_uses]. destruct (Nat.leb _ _); [|apply more_uses].
  intros E. injection E as <- <- <-. apply uses_nil.
Qed.
Lemma getline_uses sep limit f : forall acc evs s r s' evs',
  getline_loop f sep limit acc evs s = Some (r, s', evs') -> uses (is_sig r) evs evs'.
Proof.
  induction f as [|f IH]; intros acc evs s r s' evs' E; [discriminate|]. cbn [getline_loop] in E.
  destruct (at_limit _ _); [injection E as <- <- <-; apply uses_nil|].
  destruct (read_impl (S f) (Some 1%nat) true evs s) as [[[x s1] e1]|] eqn:A; [|discriminate]. apply impl_uses in A.
  destruct x as [[|b l]| | |]; try (injection E as <- <- <-; exact A).
  destruct (ends_with _ _); [injection E as <- <- <-; exact A|]. apply IH in E. exact (uses_trans _ _ _ _ A E).
Qed.

Lemma interrupted_by_signal o s r s' evs' : waits o s = Some (r, s', evs') ->
  exists used, given o = used ++ evs' /\ stops (match r with Sig => true | _ => false end) used.
Proof.
  destruct o as [len exact f evs|n f evs|n evs|n f evs|f evs|sep limit f evs|f evs| |w o|b|d]; cbn [waits given]; intros E;
    try discriminate.
  - apply impl_uses in E. exact E.
  - unfold sysread in E. destruct (Nat.leb _ _); [injection E as <- <- <-; apply uses_nil|].
    destruct (read_step f true _ evs _) as [[[x s1] e1]|] eqn:A; [|discriminate]. apply step_uses in A.
    destruct x; injection E as <- <- <-; exact A.
  - unfold readpartial in E. destruct (Nat.leb _ _); [injection E as <- <- <-; apply uses_nil|].
    destruct (pushback _); [|injection E as <- <- <-; apply uses_nil].
    destruct (fill_retry f evs _) as [[[x s1] e1]|] eqn:A; [|discriminate]. apply retry_uses in A.
    destruct x; injection E as <- <- <-; exact A.
  - assert (U : forall s r s' evs', option_map conclude (read_until f 10 [] evs s) = Some (r, s', evs') -> uses (is_sig r) evs evs').
    { intros s2 r2 s3 e3. apply conclude_uses. intros fi b s1 e1 Q. apply until_uses in Q. exact Q. }
    unfold read_line in E. destruct (pushback _) as [|c pb]; [apply U in E; exact E|].
    destruct (find_byte 10 _); [injection E as <- <- <-; apply uses_nil|].
    destruct (option_map conclude _) as [[[x s1] e1]|] eqn:A; [|discriminate]. apply U in A.
    destruct x; injection E as <- <- <-; exact A.
  - apply getline_uses in E. exact E.
Qed.
