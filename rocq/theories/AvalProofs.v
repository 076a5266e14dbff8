(** Proofs about values_at, fetch_values, assoc, rassoc and tally. *)
From Coq Require Import ZArith List Bool Lia.
From Verif Require Import AvalModel AvalSpec.
Import ListNotations.
Local Open Scope Z_scope.

Ltac plain a := lazymatch a with context [if _ then _ else _] => fail | _ => idtac end.
Ltac cases := cbv zeta; repeat match goal with
  | |- context [?a <? ?b] => plain a; plain b; destruct (Z.ltb_spec a b)
  | |- context [?a <=? ?b] => plain a; plain b; destruct (Z.leb_spec a b)
  end; cbn [andb orb negb]; try lia.

Lemma aref_ok : forall (V : Type) (nil : V) l z, aref V nil l z = elem_at nil l z.
Proof.
  intros V nil l z; unfold aref, elem_at, position. cases; try reflexivity.
  all: apply nth_overflow; lia.
Qed.

Lemma run_ok : forall (V : Type) (nil : V) l n i, 0 <= i ->
  run V nil l n i = map (fun p => nth p l nil) (seq (Z.to_nat i) n).
Proof.
  intros V nil l n; induction n as [|n IH]; intros i I; cbn; [reflexivity|].
  rewrite IH by lia. replace (Z.to_nat (i + 1)) with (S (Z.to_nat i)) by lia.
  f_equal. unfold aref; cbv zeta. rewrite !(proj2 (Z.ltb_ge i 0)) by lia. reflexivity.
Qed.

(** A Range that begins before the Array gives nothing; else Ruby's elements. *)
Lemma value_sel_ok : forall (V : Type) (nil : V) l s,
  value_sel V nil l s = match ruby_sel nil l s with Some r => r | None => [] end.
Proof.
  intros V nil l [z|b e x]; unfold value_sel, ruby_sel.
  - rewrite aref_ok; reflexivity.
  - unfold range_from, range_to. set (len := Z.of_nat (length l)). assert (0 <= len) by (unfold len; lia).
    destruct b as [b|], e as [e|], x; cbn [negb andb]; cases; try reflexivity; rewrite run_ok by lia;
      f_equal; f_equal; lia.
Qed.

Lemma values_at_ok : forall (V : Type) (nil : V) l ss r,
  ruby_values_at nil l ss = Some r -> values_at V nil l ss = r.
Proof.
  intros V nil l ss; induction ss as [|s ss IH]; intros r H; cbn in *.
  - injection H as <-; reflexivity.
  - rewrite value_sel_ok. destruct (ruby_sel nil l s) as [a|]; [|discriminate].
    destruct (ruby_values_at nil l ss) as [b|]; [|discriminate]. injection H as <-.
    f_equal. apply IH; reflexivity.
Qed.

Lemma fetch_values_ok : forall (V : Type) (nil : V) g l ix r,
  fetch_values V nil g l ix = Some r <-> Forall2 (fun z v => fetched nil g l z = Some v) ix r.
Proof.
  intros V nil g l ix.
  assert (A : forall z, (match g with
               | Some g => Some (if (z <? - Z.of_nat (length l)) || (Z.of_nat (length l) <=? z) then g z else aref V nil l z)
               | None => fetch V nil l z
               end) = fetched nil g l z).
  { intros z. unfold fetched, fetch. rewrite aref_ok. unfold elem_at, position.
    destruct g; cases; try reflexivity. }
  induction ix as [|z ix IH]; intros r; cbn.
  - split; intros H; [injection H as <-; constructor | inversion H; reflexivity].
  - rewrite A. split; intros H.
    + destruct (fetched nil g l z) as [v|] eqn:E; [|discriminate].
      destruct (fetch_values V nil g l ix) as [vs|]; [|discriminate]. injection H as <-.
      constructor; [exact E | apply IH; reflexivity].
    + inversion H as [|? v ? vs E F]; subst. rewrite E. apply IH in F. rewrite F. reflexivity.
Qed.

Lemma assoc_loop_ok : forall k key es r, ruby_assoc k key es = Some r -> assoc_loop k key es = r.
Proof.
  intros k key es; induction es as [|e es IH]; intros r H; cbn in *; [injection H as <-; reflexivity|].
  assert (Q : forall l, match nth_error l k with
      | Some v => if v =? key then Some (Some l) else ruby_assoc k key es
      | None => ruby_assoc k key es end = Some r ->
      (if Nat.ltb k (length l) && (nth k l 0 =? key) then Some l else assoc_loop k key es) = r).
  { intros l E. destruct (nth_error l k) as [v|] eqn:N.
    - assert (L : (k < length l)%nat) by (apply nth_error_Some; rewrite N; discriminate).
      rewrite (nth_error_nth l k 0 N). apply Nat.ltb_lt in L; rewrite L; cbn [andb].
      destruct (v =? key); [injection E as <-; reflexivity | apply IH; exact E].
    - apply nth_error_None in N. destruct (Nat.ltb_spec k (length l)); [lia|]. apply IH; exact E. }
  destruct e as [l|l| | |]; [apply Q; exact H | apply Q; exact H | apply IH; exact H | discriminate | apply IH; exact H].
Qed.

Lemma assoc_ok : forall key es r, ruby_assoc 0 key es = Some r -> assoc key es = r.
Proof. intros key es r; apply assoc_loop_ok. Qed.
Lemma rassoc_ok : forall key es r, ruby_assoc 1 key es = Some r -> rassoc key es = r.
Proof. intros key es r; apply assoc_loop_ok. Qed.

(** tally *)
Lemma bump_in : forall x h, existsb (Z.eqb x) (map fst h) = true ->
  bump x h = map (fun e => (fst e, snd e + (if fst e =? x then 1 else 0))) h \/ ~ NoDup (map fst h).
Proof.
  intros x h; induction h as [|[y n] r IH]; cbn; [discriminate|]. intros H.
  destruct (Z.eqb_spec y x) as [->|N].
  - destruct (in_dec Z.eq_dec x (map fst r)) as [I|I].
    + right; intros D; inversion D; contradiction.
    + left; f_equal. rewrite <- (map_id r) at 1. apply map_ext_in; intros [z m] Hz; cbn.
      destruct (Z.eqb_spec z x) as [->|_].
      * exfalso; apply I; change x with (fst (x, m)); apply in_map; exact Hz.
      * rewrite Z.add_0_r; reflexivity.
  - rewrite (proj2 (Z.eqb_neq x y)) in H by congruence; cbn in H.
    destruct (IH H) as [->|D]; [left; rewrite Z.add_0_r; reflexivity | right; intros E; inversion E; contradiction].
Qed.

Lemma bump_out : forall x h, existsb (Z.eqb x) (map fst h) = false -> bump x h = h ++ [(x, 1)].
Proof.
  intros x h; induction h as [|[y n] r IH]; cbn; [reflexivity|]. intros H.
  apply orb_false_iff in H as [A B]. rewrite Z.eqb_sym, A, IH by exact B. reflexivity.
Qed.

Lemma firsts_ext : forall l s t, (forall x, existsb (Z.eqb x) s = existsb (Z.eqb x) t) -> firsts s l = firsts t l.
Proof.
  intros l; induction l as [|y l IH]; intros s t H; cbn; [reflexivity|].
  rewrite (H y). destruct (existsb (Z.eqb y) t); [apply IH; exact H|].
  f_equal. apply IH. intros x; cbn. rewrite H; reflexivity.
Qed.

Lemma firsts_new : forall l s x, In x (firsts s l) -> existsb (Z.eqb x) s = false.
Proof.
  intros l; induction l as [|y l IH]; intros s x H; cbn in H; [contradiction|].
  destruct (existsb (Z.eqb y) s) eqn:E; [apply IH; exact H|].
  destruct H as [<-|H]; [exact E|]. apply IH in H. cbn in H. apply orb_false_iff in H; apply H.
Qed.

Lemma times_cons : forall x y l, times x (y :: l) = times x l + (if x =? y then 1 else 0).
Proof.
  intros x y l; unfold times; cbn. destruct (Z.eq_dec y x) as [->|N].
  - rewrite Z.eqb_refl; lia.
  - rewrite (proj2 (Z.eqb_neq x y)) by congruence; lia.
Qed.

Lemma tally_gen : forall l h, NoDup (map fst h) ->
  fold_left (fun h x => bump x h) l h
  = map (fun e => (fst e, snd e + times (fst e) l)) h ++ map (fun x => (x, times x l)) (firsts (map fst h) l).
Proof.
  intros l; induction l as [|y l IH]; intros h D; cbn [fold_left firsts].
  - cbn. rewrite app_nil_r. rewrite <- (map_id h) at 1. apply map_ext; intros [a b]; cbn. f_equal; unfold times; cbn; lia.
  - destruct (existsb (Z.eqb y) (map fst h)) eqn:E.
    + destruct (bump_in y h E) as [B|B]; [|contradiction]. rewrite B, IH by (rewrite map_map; exact D).
      rewrite map_map. f_equal.
      * apply map_ext; intros [a b]; cbn. rewrite times_cons. f_equal. lia.
      * rewrite map_map; cbn. apply map_ext_in. intros x I. rewrite times_cons.
        apply firsts_new in I. change (map (fun x0 : Z * Z => fst x0) h) with (map fst h) in I.
        destruct (Z.eqb_spec x y) as [->|_]; [congruence | f_equal; lia].
    + assert (NI : ~ In y (map fst h)).
      { intros I. rewrite <- not_true_iff_false in E. apply E. apply existsb_exists; exists y; split; [exact I | apply Z.eqb_refl]. }
      rewrite (bump_out y h E), IH.
      2:{ rewrite map_app; cbn. apply NoDup_rev in D. rewrite <- (rev_involutive (map fst h ++ [y])). apply NoDup_rev.
          rewrite rev_app_distr; cbn. constructor; [rewrite <- in_rev; exact NI | exact D]. }
      rewrite !map_app. cbn [map fst snd]. rewrite <- app_assoc. cbn [app]. f_equal.
      * apply map_ext_in; intros [a b] I; cbn. rewrite times_cons.
        destruct (Z.eqb_spec a y) as [->|_]; [|f_equal; lia].
        exfalso; apply NI; change y with (fst (y, b)); apply in_map; exact I.
      * f_equal; [rewrite times_cons, Z.eqb_refl; f_equal; lia|].
        rewrite (firsts_ext l (map fst h ++ [y]) (y :: map fst h)).
        2:{ intros x; rewrite existsb_app; cbn. rewrite orb_false_r, orb_comm; reflexivity. }
        apply map_ext_in; intros x I. apply firsts_new in I; cbn in I. apply orb_false_iff in I as [I _].
        rewrite times_cons, I. f_equal; lia.
Qed.

(** tally: each element at its first place with how often it is there. *)
Lemma tally_ok : forall l, tally l = map (fun x => (x, times x l)) (firsts [] l).
Proof. intros l; unfold tally. rewrite tally_gen by constructor. reflexivity. Qed.

(* ------------------------------------------------------------------ *)
(** ** What does not hold *)

Lemma values_range_bad : ~ (forall (V : Type) (nil : V) l ss,
  ruby_values_at nil l ss = Some (values_at V nil l ss)).
Proof. intros H. specialize (H Z 0 [1; 2; 3] [Rg (Some (-4)) (Some 1) false]). discriminate H. Qed.

Lemma assoc_other_bad : ~ (forall key es, ruby_assoc 0 key es = Some (assoc key es)).
Proof. intros H. specialize (H 1 [EConvOther; EArr [1; 2]]). discriminate H. Qed.
