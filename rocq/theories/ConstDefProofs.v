(** [defined?(A::B)] and reading it. *)
From Coq Require Import List Bool Arith Lia.
From Verif Require Import ConstModel ConstSpec ConstProofs.
Import ListNotations.

Definition found (r : res) : Prop := match r with RVal _ _ | RFire => True | RErr _ => False end.
(** The name is not both [Object]'s own and that of a class behind [Object]. *)
Definition plain (e : env) (c : cls) (n : name) : Prop :=
  c = OBJECT \/ defining e c n <> Some OBJECT \/ first_in e n (qual_scopes e c) = LNone.

Lemma first_probe : forall e n cs, first_in e n cs <> LNone <-> existsb (probe_at e n) cs = true.
Proof.
  intros e n. induction cs as [|c r IH]; cbn; [split; [intros H; destruct (H eq_refl)|discriminate]|].
  unfold probe_at at 1. destruct (get1 e c n); cbn; [exact IH| |]; split; intros; congruence.
Qed.
Lemma find_none_first : forall e n cs, find (probe_at e n) cs = None <-> first_in e n cs = LNone.
Proof.
  intros e n. induction cs as [|c r IH]; cbn; [split; reflexivity|]. unfold probe_at at 1. destruct (get1 e c n); [exact IH|split; discriminate|split; discriminate].
Qed.
Lemma find_filter : forall (f g : nat -> bool) l d, find f l = Some d -> g d = true -> find f (filter g l) = Some d.
Proof.
  intros f g. induction l as [|x r IH]; intros d H Hg; cbn in *; [discriminate|].
  destruct (f x) eqn:Ef.
  - injection H as ->. rewrite Hg. cbn. rewrite Ef. reflexivity.
  - destruct (g x); cbn; [rewrite Ef|]; exact (IH d H Hg).
Qed.
Lemma find_filter_none : forall (f g : nat -> bool) l, find f l = None -> find f (filter g l) = None.
Proof.
  intros f g. induction l as [|x r IH]; intros H; cbn in *; [reflexivity|]. destruct (f x) eqn:Ef; [discriminate|].
  destruct (g x); cbn; [rewrite Ef|]; exact (IH H).
Qed.
Lemma qual_found : forall e c n, found (qual e no_hook c n) <-> first_in e n (qual_scopes e c) <> LNone.
Proof.
  intros e c n. unfold qual, missing, no_hook. destruct (first_in e n (qual_scopes e c)); cbn; split; try tauto; try discriminate.
Qed.

Lemma last_defined : forall e c n, plain e c n ->
  probe_qual e c n = true <-> found (last_name e no_hook false (PMod c false) n).
Proof.
  intros e c n Hp. unfold probe_qual. cbn.
  assert (Hq : found (mark false (qual e no_hook c n)) <-> first_in e n (qual_scopes e c) <> LNone).
  { rewrite <- qual_found. destruct (qual e no_hook c n); cbn; tauto. }
  destruct (defining e c n) as [d|] eqn:Ed.
  - assert (Hcase : find (probe_at e n) (qual_scopes e c) = Some d \/ first_in e n (qual_scopes e c) = LNone).
    { destruct Hp as [->|[Hp|Hp]]; [left| |right; exact Hp].
      - unfold qual_scopes. apply find_filter; [exact Ed|]. cbn. destruct (d =? OBJECT); reflexivity.
      - left. unfold qual_scopes. apply find_filter; [exact Ed|]. destruct (Nat.eqb_spec d OBJECT) as [->|_]; [congruence|reflexivity]. }
    destruct Hcase as [Hc|Hc].
    + rewrite Hc. destruct (is_priv e d n); cbn; [unfold missing, no_hook; cbn; split; [discriminate|intros []]|].
      rewrite Hq. split; [|intros _; reflexivity]. intros _ Hn. apply find_none_first in Hn. congruence.
    + rewrite (proj2 (find_none_first e n _) Hc). split; [discriminate|].
      destruct (is_priv e d n); [unfold missing, no_hook; cbn; intros []|]. rewrite Hq. congruence.
  - assert (Hn : find (probe_at e n) (qual_scopes e c) = None) by (apply find_filter_none; exact Ed).
    rewrite Hn. split; [discriminate|]. rewrite Hq. apply find_none_first in Hn. congruence.
Qed.

Lemma first_search : forall e l n, found (search e no_hook l None n) <-> first_in e n (scopes e l None) <> LNone.
Proof. intros e l n. unfold search, missing, no_hook. destruct (first_in e n (scopes e l None)); cbn; split; try tauto; try discriminate. Qed.

Theorem defined_right : forall e l s base, s_check s = false ->
  length (s_prefix s) <= (match base with Some _ => 0 | None => if s_top s then 0 else 1 end) ->
  (forall p, In p (s_prefix s) -> first_in e p (scopes e l None) <> LFire) ->
  (forall c, plain e c (s_name s)) ->
  probe e l s base None = true <-> found (resolve e no_hook l s base None).
Proof.
  intros e l s base Hck Hlen Hq Hp. unfold probe, resolve. rewrite Hck.
  destruct base as [b|].
  - destruct (s_prefix s) as [|p r]; [|cbn in Hlen; lia]. cbn [segments probe_segments].
    destruct b as [|c|z]; cbn [as_mod segments]; try (cbn; split; [discriminate|intros []]).
    exact (last_defined e c (s_name s) (Hp c)).
  - destruct (s_top s).
    + destruct (s_prefix s) as [|p r]; [|cbn in Hlen; lia]. exact (last_defined e OBJECT (s_name s) (Hp OBJECT)).
    + destruct (s_prefix s) as [|p r].
      * rewrite first_search, first_probe. unfold scopes, frame_scopes. cbn [sub].
        assert (Hsf : forall cs, sub_first l None cs = cs) by (intros [|x y]; reflexivity). rewrite Hsf.
        destruct (l_frame l) as [fs|]; [|reflexivity]. rewrite Hsf. rewrite !existsb_app.
        destruct (l_ieval l) as [c|]; cbn [existsb]; [|rewrite orb_false_r; reflexivity].
        assert (Hfs : existsb (probe_at e (s_name s)) fs = existsb (probe_at e (s_name s)) (firstn 1 fs) || existsb (probe_at e (s_name s)) (skipn 1 fs))
          by (rewrite <- existsb_app, firstn_skipn; reflexivity).
        rewrite Hfs. rewrite !existsb_app. cbn [existsb].
        destruct (existsb (probe_at e (s_name s)) (firstn 1 fs)), (probe_at e (s_name s) c), (existsb (probe_at e (s_name s)) (skipn 1 fs)); reflexivity.
      * destruct r as [|p2 r]; [|cbn in Hlen; lia]. specialize (Hq p (or_introl eq_refl)). unfold search.
        destruct (first_in e p (scopes e l None)) as [|v|]; [| |congruence].
        -- unfold missing, no_hook. cbn. split; [discriminate|intros []].
        -- destruct v as [|c|z]; cbn [as_mod segments probe_segments]; try (cbn; split; [discriminate|intros []]).
           exact (last_defined e c (s_name s) (Hp c)).
Qed.
