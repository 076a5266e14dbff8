(** The arguments of the compiled send. *)
From Coq Require Import ZArith List Bool Lia.
From Verif Require Import ArgModel ArgSpec ArgProofs ArgKwProofs ArgCallProofs ArgJitProofs ArgFwdProofs SendModel SendSpec.
Import ListNotations.
Open Scope nat_scope.

Lemma send_simple_ok : forall toary p f l fwd,
  params_ok p -> vals_ok l -> slots p <= length f -> (is_simple p = true -> p_req p = length l) ->
  exists r, call_result toary p (bare l) [] r /\
            agrees f (send_simple toary p f (compile_site (bare l) [] fwd) l) r.
Proof.
  intros toary p f l fwd PO VO LF E.
  assert (X : send_simple toary p f (compile_site (bare l) [] fwd) l = set_yield toary p f (compile_site (bare l) [] fwd)).
  { unfold send_simple, set_yield. cbn [compile_site s_pos]. rewrite bare_fst. destruct (is_simple p) eqn:S; [|reflexivity].
    rewrite E, Nat.eqb_refl by reflexivity. reflexivity. }
  rewrite X. now apply set_yield_ok.
Qed.

(** With another number of arguments both refuse. *)
Lemma send_simple_refuses : forall toary p f l fwd,
  is_simple p = true -> p_req p <> length l -> p_block p = false ->
  send_simple toary p f (compile_site (bare l) [] fwd) l = Err (EArity (p_req p)) /\
  call_result toary p (bare l) [] (inr (EArity (length l))).
Proof.
  intros toary p f l fwd S E B. unfold send_simple. rewrite S. apply Nat.eqb_neq in E as E'. rewrite E'. split; [reflexivity|].
  unfold is_simple in S. repeat (apply andb_true_iff in S as [S ?]).
  apply Nat.eqb_eq in S. apply Nat.eqb_eq in H1. apply negb_true_iff in H0.
  destruct (no_keyword_parts p H) as [K1 K2].
  assert (RE : p_rest p = None) by (unfold is_rest in H0; destruct (p_rest p); congruence).
  apply (cr_arity toary p (bare l) [] l []).
  - rewrite bare_splat, bare_spread. reflexivity.
  - reflexivity.
  - unfold fold_keywords. rewrite H. cbn [fst]. rewrite app_nil_r. apply as_not. unfold single_arg_expand. now rewrite B.
  - exact B.
  - unfold accepts, min_args, max_args. rewrite RE. intros [a [b|b]]; [lia|discriminate].
Qed.

(** ** [send( *x)] *)
Lemma fill_either : forall p f l, total_pos p <= length f -> fill_slice p f l = fill_slots p f (down l) (length l).
Proof.
  intros p f l H. unfold fill_slice, fill_slots.
  assert (PA : forall cs, p_block p = false -> positional p l cs -> accepts p (length l)).
  { intros cs B P. inversion P; congruence. }
  destruct (fill_positional_spec p f l true H) as [(B & A & E)|(cs & P & E)]; cbn [src_of] in E; rewrite E;
  destruct (fill_positional_spec p f l false H) as [(B' & A' & E')|(cs' & P' & E')]; cbn [src_of] in E'; rewrite E'; auto.
  - destruct A. eapply PA; eauto.
  - destruct A'. eapply PA; eauto.
  - now rewrite (positional_fun p l cs cs').
Qed.

Lemma ordinary_none : forall s kws f i u, s_kw_args s = [] ->
  ordinary s f i kws u = (let! f := put_range f i (length kws) (fun _ => Some Unset) in Ok (f, u)).
Proof.
  intros s. induction kws as [|[n r] kws IH]; intros f i u K; cbn [ordinary length put_range]; [reflexivity|].
  rewrite K. cbn [im_get]. destruct (put f i Unset); cbn [bind]; [|reflexivity..]. now apply IH.
Qed.
Lemma keyword_simple : forall p f s, params_ok p -> s_kw_args s = [] -> s_hsplat s = [] -> no_keyword p = false ->
  handle_keyword p f s None = handle_keyword_simple p f.
Proof.
  intros p f s [_ PF] K H N. unfold handle_keyword, handle_keyword_simple, ordinary_keyword, hash_splat_and_kw_rest, any_keyword_passed, kw_may_exists.
  rewrite N, K, H. destruct (p_forbid p).
  - destruct (PF eq_refl) as [KR KK]. unfold check_missing. rewrite KR, KK. cbn [existsb length put_range bind negb orb missing].
    destruct (put f (kwrest_slot p) (Val VNil)); reflexivity.
  - rewrite ordinary_none by exact K. destruct (put_range _ _ _ _) as [g| |]; cbn [bind]; [|reflexivity..].
    cbn [length]. replace (0 <? 0) with false by reflexivity. cbn [andb splat_loop app bind negb orb]. destruct (p_kwrest p).
    + destruct (put g (kwrest_slot p) (Val VNil)); cbn [bind]; [|reflexivity..]. destruct (check_missing p a); reflexivity.
    + cbn [bind]. destruct (check_missing p g); reflexivity.
Qed.

Lemma splat_as_simple : forall toary p f a v l fwd, params_ok p -> single_arg_expand p = false -> total_pos p <= length f ->
  elements a = v :: l ->
  send_splat_args p f (OArr a) = Some (set_simple toary p f (compile_site (bare l) [] fwd) l).
Proof.
  intros toary p f a v l fwd PO SA LF E. unfold send_splat_args, set_simple. rewrite E, SA, fill_either by exact LF. f_equal.
  destruct (fill_slots p f (down l) (length l)) as [g| |]; cbn [bind]; [|reflexivity..].
  destruct (no_keyword p) eqn:N; [reflexivity|]. symmetry. now apply keyword_simple.
Qed.

Definition unflagged (l : list value) : Prop := forall hd h, split_last l <> Some (hd, VHash true h).
Lemma unflagged_flight : forall p l b, unflagged l -> flight p b [] l = (l, []).
Proof.
  intros p l b U. unfold flight. destruct b; [|reflexivity]. destruct (split_last l) as [[hd x]|] eqn:S; [|reflexivity].
  destruct x as [| | |[] h]; try reflexivity. now destruct (U hd h).
Qed.
Lemma call_unflagged : forall toary p l r, unflagged l -> call_result toary p (bare l) [] r -> call_result toary p [(VArr l, true)] [] r.
Proof.
  intros toary p l r U C.
  assert (F : flight p (existsb snd [(VArr l, true)]) [] (spread [(VArr l, true)]) = flight p (existsb snd (bare l)) [] (spread (bare l))).
  { assert (S : spread [(VArr l, true)] = l) by (cbn; apply app_nil_r). rewrite bare_spread, S, !unflagged_flight by exact U. reflexivity. }
  inversion C; subst; rewrite <- F in *; [eapply cr_nokw|eapply cr_raise|eapply cr_arity|eapply cr_keyword|eapply cr_bound]; eauto.
Qed.

Lemma send_splat_ok : forall toary p f a v l, params_ok p -> vals_ok l -> single_arg_expand p = false -> slots p <= length f ->
  elements a = v :: l -> unflagged l ->
  exists r g, call_result toary p [(VArr l, true)] [] r /\ send_splat_args p f (OArr a) = Some g /\ agrees f g r.
Proof.
  intros toary p f a v l PO VO SA LF E U.
  destruct (set_simple_ok toary p f l false PO VO LF) as (r & C & A).
  exists r, (set_simple toary p f (compile_site (bare l) [] false) l). split; [now apply call_unflagged|]. split; [|exact A].
  eapply splat_as_simple; eauto. unfold slots in LF. lia.
Qed.

Lemma splat_name_ok : forall name_of a, array_ok a -> unflagged (elements a) -> elements a <> [] ->
  splat_name name_of (OArr a) = builtin_name name_of (OArr a).
Proof.
  intros name_of a O U NE. unfold splat_name, builtin_name, builtin_args, array_ok in *. cbn [spread_operand].
  destruct (elements a) as [|v l]; [congruence|]. rewrite O.
  destruct (split_last (v :: l)) as [[hd x]|] eqn:S; [|reflexivity].
  destruct x as [| | |[] h]; try reflexivity. now destruct (U hd h).
Qed.
