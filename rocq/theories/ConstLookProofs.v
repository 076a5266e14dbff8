(** Lookup against the order Ruby gives. *)
From Coq Require Import List Bool Arith.
From Verif Require Import ConstModel ConstSpec.
Import ListNotations.

Lemma get1_none : forall e c n, get1 e c n = LNone <-> ~ has e n c.
Proof.
  intros e c n. unfold get1, has. destruct (tbl e c n) as [x|].
  - destruct (e_kind x) as [v|a] eqn:E.
    + split; [discriminate|]. intros H. exfalso. apply H. exists x. split; [reflexivity|right; exists v; exact E].
    + destruct a; (split; [intros H|intros H; try reflexivity]); try discriminate.
      * exfalso. apply H. exists x. split; [reflexivity|left; exact E].
      * intros [y [Hy Hk]]. injection Hy as <-. rewrite E in Hk. destruct Hk as [Hk|[v Hk]]; discriminate.
      * intros [y [Hy Hk]]. injection Hy as <-. rewrite E in Hk. destruct Hk as [Hk|[v Hk]]; discriminate.
  - split; [|reflexivity]. intros _ [x [H _]]. discriminate.
Qed.

Lemma first_none : forall e n cs, first_in e n cs = LNone <-> (forall c, In c cs -> ~ has e n c).
Proof.
  intros e n cs. induction cs as [|c r IH]; cbn [first_in].
  - split; [intros _ c []|reflexivity].
  - destruct (get1 e c n) eqn:E.
    + rewrite IH. split.
      * intros H d [<-|Hd]; [apply get1_none; exact E|exact (H d Hd)].
      * intros H d Hd. exact (H d (or_intror Hd)).
    + split; [discriminate|]. intros H. pose proof (proj2 (get1_none e c n) (H c (or_introl eq_refl))) as X. rewrite X in E. discriminate.
    + split; [discriminate|]. intros H. pose proof (proj2 (get1_none e c n) (H c (or_introl eq_refl))) as X. rewrite X in E. discriminate.
Qed.

Definition as_look (k : ckind) : look := match k with Loaded v => LVal v | Auto _ => LFire end.
Definition live (k : ckind) : Prop := k = Auto Idle \/ exists v, k = Loaded v.
Lemma first_nearest : forall e n cs k, live k -> first_in e n cs = as_look k <-> nearest e n cs k.
Proof.
  intros e n cs k Hk. induction cs as [|c r IH]; cbn [first_in].
  - split; [destruct k; discriminate|]. intros [a [d [b [x [H _]]]]]. destruct a; discriminate.
  - destruct (get1 e c n) eqn:E.
    + rewrite IH. pose proof (proj1 (get1_none e c n) E) as Hn. split.
      * intros [a [d [b [x [H1 [H2 [H3 H4]]]]]]]. exists (c :: a), d, b, x. rewrite H1. split; [reflexivity|]. split; [|split; assumption].
        intros y [<-|Hy]; [exact Hn|exact (H2 y Hy)].
      * intros [a [d [b [x [H1 [H2 [H3 H4]]]]]]]. destruct a as [|y a]; cbn in H1; injection H1 as -> ->.
        -- exfalso. apply Hn. exists x. split; [exact H3|]. rewrite H4. exact Hk.
        -- exists a, d, b, x. split; [reflexivity|]. split; [|split; assumption]. intros z Hz. exact (H2 z (or_intror Hz)).
    + unfold get1 in E. destruct (tbl e c n) as [x|] eqn:T; [|discriminate]. destruct (e_kind x) as [w|[]] eqn:K; try discriminate. injection E as ->.
      split.
      * intros H. exists [], c, r, x. split; [reflexivity|]. split; [intros d []|]. split; [exact T|].
        destruct k; [|discriminate]. injection H as ->. exact K.
      * intros [a [d [b [y [H1 [H2 [H3 H4]]]]]]]. destruct a as [|z a]; cbn in H1; injection H1 as -> ->.
        -- rewrite H3 in T. injection T as ->. rewrite <- H4, K. reflexivity.
        -- exfalso. apply (H2 z (or_introl eq_refl)). exists x. split; [exact T|]. right. exists v. exact K.
    + unfold get1 in E. destruct (tbl e c n) as [x|] eqn:T; [|discriminate]. destruct (e_kind x) as [w|[]] eqn:K; try discriminate.
      split.
      * intros H. exists [], c, r, x. split; [reflexivity|]. split; [intros d []|]. split; [exact T|].
        destruct k as [|a]; [discriminate|]. destruct Hk as [Hk|[v Hk]]; [rewrite Hk; exact K|discriminate].
      * intros [a [d [b [y [H1 [H2 [H3 H4]]]]]]]. destruct a as [|z a]; cbn in H1; injection H1 as -> ->.
        -- rewrite H3 in T. injection T as ->. rewrite <- H4, K. reflexivity.
        -- exfalso. apply (H2 z (or_introl eq_refl)). exists x. split; [exact T|]. left. exact K.
Qed.

(** A list that looks the same: repetitions behind do not count. *)
Lemma first_app : forall e n a b, first_in e n (a ++ b) = match first_in e n a with LNone => first_in e n b | x => x end.
Proof. intros e n a b. induction a as [|c a IH]; [reflexivity|]. cbn. destruct (get1 e c n); [exact IH|reflexivity|reflexivity]. Qed.
Lemma first_dup : forall e n a, In OBJECT a -> first_in e n (a ++ [OBJECT]) = first_in e n a.
Proof.
  intros e n a H. rewrite first_app. destruct (first_in e n a) eqn:E; [|reflexivity|reflexivity].
  rewrite first_none in E. cbn. rewrite (proj2 (get1_none e OBJECT n) (E OBJECT H)). reflexivity.
Qed.

(** The ancestors of every class but [BasicObject] end in [Object] and what is behind it. *)
Definition rooted (e : env) : Prop := forall c, c <> BASIC -> In OBJECT (chain e c).

Lemma scopes_around : forall e l n, rooted e -> l_frame l = None ->
  first_in e n (scopes e l None) = first_in e n (around e (l_meth l)).
Proof.
  intros e l n Hr Hf. unfold scopes, frame_scopes, lex_class, around. rewrite Hf. cbn [sub].
  assert (sub_first l None (l_meth l) = l_meth l) as Hs by (destruct (l_meth l); reflexivity).
  rewrite Hs. cbn [app]. rewrite !first_app. destruct (first_in e n (l_meth l)); [|reflexivity|reflexivity].
  destruct (hd OBJECT (l_meth l) =? BASIC) eqn:E; [reflexivity|].
  apply Nat.eqb_neq in E. cbn [first_in]. destruct (first_in e n (chain e (hd OBJECT (l_meth l)))) eqn:F; [|reflexivity|reflexivity].
  rewrite first_none in F. rewrite (proj2 (get1_none e OBJECT n) (F OBJECT (Hr _ E))). reflexivity.
Qed.

Definition ends (k : ckind) : res := match k with Loaded v => RVal v false | Auto _ => RFire end.

Lemma name_right : forall e h l s k, rooted e -> l_frame l = None -> s_top s = false -> s_prefix s = [] -> s_check s = false -> live k ->
  nearest e (s_name s) (around e (l_meth l)) k -> resolve e h l s None None = ends k.
Proof.
  intros e h l s k Hr Hf Ht Hp Hc Hk Hn. apply (first_nearest e _ _ k Hk) in Hn. rewrite <- (scopes_around e l _ Hr Hf) in Hn.
  unfold resolve, search. rewrite Ht, Hp, Hc, Hn. destruct k; reflexivity.
Qed.
Lemma name_missing : forall e h l s, rooted e -> l_frame l = None -> s_top s = false -> s_prefix s = [] -> s_check s = false ->
  (forall c, In c (around e (l_meth l)) -> ~ has e (s_name s) c) ->
  resolve e h l s None None = match h (hd OBJECT (l_meth l)) (s_name s) with
                              | Some v => RVal v true | None => RErr (ErrName (hd OBJECT (l_meth l)) (s_name s)) end.
Proof.
  intros e h l s Hr Hf Ht Hp Hc Hn. apply first_none in Hn. rewrite <- (scopes_around e l _ Hr Hf) in Hn.
  unfold resolve, search. rewrite Ht, Hp, Hc, Hn. unfold missing, lex_class. rewrite Hf. reflexivity.
Qed.

(** In a class: its ancestors, [Object] only for [Object] itself; nothing private. *)
Lemma in_class_right : forall e h l s c k, s_prefix s = [] -> s_check s = false -> live k ->
  nearest e (s_name s) (filter (fun d => negb ((d =? OBJECT) && negb (c =? OBJECT))) (chain e c)) k ->
  (forall d, In d (chain e c) -> has e (s_name s) d -> is_priv e d (s_name s) = false) ->
  resolve e h l s (Some (VMod c)) None = ends k.
Proof.
  intros e h l s c k Hp Hc Hk Hn Hv. apply (first_nearest e _ _ k Hk) in Hn.
  unfold resolve. rewrite Hp, Hc. cbn [as_mod segments orb last_name].
  assert (qual e h c (s_name s) = ends k) as Q. { unfold qual, qual_scopes. rewrite Hn. destruct k; reflexivity. }
  assert (mark false (ends k) = ends k) as M by (destruct k; reflexivity).
  unfold defining. destruct (find (probe_at e (s_name s)) (chain e c)) as [d|] eqn:F.
  - apply find_some in F. destruct F as [F1 F2]. rewrite (Hv d F1).
    + rewrite Q. exact M.
    + unfold probe_at in F2. destruct (get1 e d (s_name s)) eqn:G; [discriminate| |];
      unfold get1 in G; destruct (tbl e d (s_name s)) as [x|] eqn:T; try discriminate; exists x; (split; [exact T|]);
      destruct (e_kind x) as [w|[]]; try discriminate; [right; exists w; reflexivity|left; reflexivity].
  - rewrite Q. exact M.
Qed.

(** A private constant is not readable through its class: [const_missing] is asked, or an exception. *)
Lemma in_class_private : forall e h l s c d, s_prefix s = [] -> s_check s = false -> nearest_class e (s_name s) (chain e c) d ->
  is_priv e d (s_name s) = true ->
  resolve e h l s (Some (VMod c)) None = match h c (s_name s) with Some v => RVal v true | None => RErr (ErrPriv d (s_name s)) end.
Proof.
  intros e h l s c d Hp Hc [a [b [H1 [H2 H3]]]] Hv. unfold resolve. rewrite Hp, Hc. cbn [as_mod segments orb last_name].
  assert (defining e c (s_name s) = Some d) as D.
  { unfold defining. rewrite H1. clear H1. induction a as [|y a IH]; cbn.
    - unfold probe_at. destruct (get1 e d (s_name s)) eqn:G; [|reflexivity|reflexivity]. exfalso. exact (proj1 (get1_none e d _) G H3).
    - unfold probe_at at 1. rewrite (proj2 (get1_none e y _) (H2 y (or_introl eq_refl))). apply IH. intros z Hz. exact (H2 z (or_intror Hz)). }
  rewrite D, Hv. unfold missing. destruct (h c (s_name s)); reflexivity.
Qed.

(** [A::B]: what [A] is, then [B] in it. *)
Definition alone (s : site) (n : name) (top : bool) : site := mkS n [] top false (s_iseq s) (s_single s) false.
Lemma path_right : forall e h l s p k, s_top s = false -> s_prefix s = [p] ->
  resolve e h l s None k =
  match resolve e h l (alone s p false) None k with
  | RVal (VMod c) hk => mark hk (resolve e h l (mkS (s_name s) [] false true (s_iseq s) (s_single s) (s_check s)) (Some (VMod c)) k)
  | RVal _ _ => RErr ErrType
  | r => r
  end.
Proof.
  intros e h l s p k Ht Hp. unfold resolve at 1 2. unfold alone. cbn [s_top s_prefix s_check s_name]. rewrite Ht, Hp.
  destruct (search e h l k p) as [v hk|x|] eqn:S; [|reflexivity|reflexivity]. destruct v as [|c|]; try reflexivity.
  unfold as_mod. cbn [orb segments]. unfold resolve. cbn [s_prefix as_mod segments orb s_check s_name]. unfold last_name.
  destruct (s_check s).
  - destruct (first_in e (s_name s) (qual_scopes e c)); cbn [mark]; rewrite ?orb_false_r; reflexivity.
  - assert (forall r, mark hk r = mark hk (mark false r)) as M by (intros []; cbn; reflexivity).
    destruct (defining e c (s_name s)) as [d|]; [destruct (is_priv e d (s_name s))|]; apply M.
Qed.

(** An assignment of another value leaves the visibility as it was; nothing else changes. *)
Lemma put_keeps : forall e c n v d m,
  is_priv (put e c n v) d m = is_priv e d m
  /\ tbl (put e c n v) c n = Some (mkE (Loaded v) (is_priv e c n))
  /\ (d <> c \/ m <> n -> tbl (put e c n v) d m = tbl e d m)
  /\ chain (put e c n v) = chain e.
Proof.
  intros e c n v d m. unfold put, set_tbl, is_priv, upd. cbn.
  destruct (Nat.eqb_spec d c) as [->|Hd]; destruct (Nat.eqb_spec m n) as [->|Hm]; rewrite ?Nat.eqb_refl; cbn;
    (split; [|split; [|split]]); try reflexivity; intros [H|H]; try reflexivity; contradiction H; reflexivity.
Qed.
