(** What is generated is read back. *)
From Coq Require Import ZArith List Bool Lia.
From Verif Require Import Utf8Spec JsonModel JsonSpec JsonProofs JsonTotalProofs JsonGenProofs JsonRubyProofs.
Import ListNotations.
Open Scope Z_scope.

Lemma all_ints_impl (P Q : Z -> Prop) : (forall z, P z -> Q z) -> forall v j, says v j -> all_ints P j -> all_ints Q j.
Proof.
  intros PQ v. induction v as [| | |z|b|e b|l IH|l IH|t] using rv_ind2; intros j hs hi; inversion hs; subst; try exact I.
  - apply PQ, hi.
  - apply all_ints_arr in hi. apply all_ints_arr. clear hs. revert m H0 hi.
    induction IH as [|x l hx _ IHl]; intros m h hi; inversion h; subst; constructor; inversion hi; subst; auto; eapply hx; eauto.
  - apply all_ints_obj in hi. apply all_ints_obj. clear hs H1. revert m H0 hi.
    induction IH as [|x l hx _ IHl]; intros m h hi; inversion h as [|p q l2 m2 (ek & hk & hv) h2]; subst; constructor; inversion hi; subst; auto; eapply hx; eauto.
Qed.
Lemma jvalue_mono rd (P Q : Z -> Prop) : (forall z, P z -> Q z) ->
  (forall t v, jvalue rd P t v -> jvalue rd Q t v) /\ (forall t l, jelems rd P t l -> jelems rd Q t l) /\
  (forall t l, jmembers rd P t l -> jmembers rd Q t l).
Proof. intro PQ. apply (jvalue_mut rd P); intros; try (constructor; auto). Qed.

(** A value text alone is read whole. *)
Lemma parse_whole rd t v : jvalue rd i64 t v -> json_parse rd t = POk v [].
Proof.
  intro h. assert (J : jtext rd i64 (t ++ []) v) by (exists [], [], t; repeat split; auto; constructor).
  unfold json_parse.
  pose proof (proj1 (parse_mut rd) t v h (2 * length t + 1)%nat [] []) as P. cbn [app] in P. rewrite app_nil_r in P. apply P; try constructor. lia.
Qed.
Theorem generate_ok dtoa rd v j : format_ok dtoa rd -> says v j -> all_ints fixnum j -> jvalue rd fixnum (gen dtoa v) j.
Proof. intros hf. exact (gen_ok dtoa rd hf v j). Qed.
Theorem round_trip dtoa rd v j : format_ok dtoa rd -> says v j -> all_ints fixnum j -> json_parse rd (gen dtoa v) = POk j [].
Proof.
  intros hf hs hi. apply parse_whole.
  refine (proj1 (jvalue_mono rd fixnum i64 _) _ _ (gen_ok dtoa rd hf v j hs hi)). unfold fixnum, i64. intros; lia.
Qed.
Theorem text_meaning rd t v v' : jtext rd i64 t v -> jtext rd i64 t v' -> v = v'.
Proof.
  intros h h'. destruct (parse_text rd _ _ h) as (w & _ & e). destruct (parse_text rd _ _ h') as (w' & _ & e'). congruence.
Qed.
Theorem state_layout fto_s recode rd ok st v j : format_ok fto_s rd ->
  layout_ok st -> says v j -> all_ints ok j -> 0 <= s_max_nesting st ->
  (fits st 0 v -> exists t, state_generate fto_s recode st v = GOk t /\ jvalue rd ok t j) /\
  (~ fits st 0 v -> state_generate fto_s recode st v = GErr NestingError).
Proof. intros hf. exact (state_generate_ok fto_s recode rd hf ok st v j). Qed.
Theorem state_round_trip fto_s recode rd st v j t : format_ok fto_s rd ->
  layout_ok st -> says v j -> all_ints i64 j -> 0 <= s_max_nesting st ->
  state_generate fto_s recode st v = GOk t -> json_parse rd t = POk j [].
Proof.
  intros hf hl hs hi hm e. destruct (state_layout fto_s recode rd i64 st v j hf hl hs hi hm) as (A & B).
  destruct (fits_dec st 0 v) as [F|F]; [|rewrite (B F) in e; discriminate].
  destruct (A F) as (u & eu & h). rewrite eu in e. injection e as <-. apply parse_whole, h.
Qed.
Theorem state_only_finite fto_s recode st v t : s_allow_nan st = false ->
  state_generate fto_s recode st v = GOk t -> all_finite v.
Proof. intro h. exact (state_finite fto_s recode st h v t). Qed.
Theorem state_only_ascii fto_s recode rd st v j t : format_ok fto_s rd -> s_ascii_only st = true -> layout_ok st ->
  says v j -> state_generate fto_s recode st v = GOk t -> ascii t.
Proof. intros hf ha hl. exact (state_ascii fto_s recode rd st hf ha hl v j t). Qed.
