From Coq Require Import List Bool ZArith Lia.
From Verif Require Import TrModel TrSpec TrProofs.
Import ListNotations.
Open Scope Z_scope.

(** The byte path gives what the character path gives, for every argument. *)
Lemma escaped_ok (P : Z -> Prop) c r : P 92 -> P c -> (forall x, In x r -> P x) -> P (fst (escaped c r)) /\ forall x, In x (snd (escaped c r)) -> P x.
Proof.
  intros h9 hc hr. unfold escaped. destruct (c =? 92); [|split; assumption].
  destruct r as [|y r]; cbn [fst snd]; [split; [exact h9|intros x []]|].
  split; [apply hr; left; reflexivity|intros x hx; apply hr; right; exact hx].
Qed.
Lemma expand_low n : forall l t, (forall x, In x l -> 0 <= x) -> expand n l = Some t -> forall x, In x t -> 0 <= x.
Proof.
  induction n as [|n IH]; intros l t hl ht x hx; [discriminate|]. destruct l as [|c r]; [injection ht as <-; contradiction|].
  cbn [expand] in ht. assert (E := escaped_ok (fun z => 0 <= z) c r (proj1 (Z.leb_le 0 92) eq_refl) (hl c (or_introl eq_refl)) (fun y hy => hl y (or_intror hy))).
  destruct (escaped c r) as [ch q]. cbn [fst snd] in E. destruct E as [hc hq].
  assert (O1 : match expand n q with Some t => Some (ch :: t) | None => None end = Some t -> 0 <= x).
  { destruct (expand n q) as [u|] eqn:eu; [|discriminate]. intros h. injection h as <-. destruct hx as [<-|hx]; [exact hc|exact (IH q u hq eu x hx)]. }
  destruct q as [|d [|e q]]; [exact (O1 ht)|exact (O1 ht)|]. destruct (d =? 45); [|exact (O1 ht)].
  assert (E := escaped_ok (fun z => 0 <= z) e q (proj1 (Z.leb_le 0 92) eq_refl) (hq e (or_intror (or_introl eq_refl))) (fun y hy => hq y (or_intror (or_intror hy)))).
  destruct (escaped e q) as [en q']. cbn [fst snd] in E. destruct E as [he hq'].
  destruct (en <? ch); [discriminate|]. destruct (expand n q') as [u|] eqn:eu; [|discriminate]. injection ht as <-.
  apply in_app_or in hx. destruct hx as [hx|hx]; [apply between_in in hx; lia|exact (IH q' u hq' eu x hx)].
Qed.
Lemma expand_spec_low l t n : chars_ok l = true -> expand_spec l = Some (t, n) -> chars_ok t = true.
Proof.
  intros hl. unfold expand_spec. rewrite caret_eq. destruct (expand (S (length (inside l))) (inside l)) as [u|] eqn:e; [|discriminate].
  intros h. injection h as <- _. apply forallb_forall. intros x hx. apply Z.leb_le.
  apply (expand_low _ _ _ (fun y hy => proj1 (Z.leb_le 0 y) (forallb_in _ _ _ hl (inside_in _ _ hy))) e x hx).
Qed.
Lemma walk_ext sq f g s : (forall c, In c s -> f c = g c) -> forall last, walk sq f last s = walk sq g last s.
Proof.
  induction s as [|c s IH]; intros h last; [reflexivity|]. cbn [walk]. rewrite (h c (or_introl eq_refl)).
  specialize (IH (fun x hx => h x (or_intror hx))). destruct (g c); rewrite IH; reflexivity.
Qed.
Lemma fast_same s from to sq : chars_ok s = true -> chars_ok from = true ->
  match fast s from to sq with Some (Some r) => translate s from to sq = Some r /\ translate_bytes s from to sq = Some r | Some None => True | None => translate s from to sq = None end.
Proof.
  intros hs hf. unfold fast, translate, translate_bytes, build. destruct (ascii s) eqn:as_; cbn [negb]; [|exact I].
  destruct (expand_spec from) as [[fs n]|] eqn:ef; [|reflexivity].
  destruct (ascii fs) eqn:af; cbn [negb]; [|exact I].
  assert (hfs := expand_spec_low _ _ _ hf ef).
  assert (A128 : forall c, In c s -> (c <? 128) = true) by (intros c hc; exact (forallb_in _ _ _ as_ hc)).
  assert (BM : forall c, In c s -> get_bit (bitmap fs) c = in_list c fs).
  { intros c hc. assert (A := A128 c hc). apply Z.ltb_lt in A.
    assert (B := forallb_in _ _ _ hs hc). cbn beta in B. apply Z.leb_le in B. apply get_bitmap; [lia|].
    apply forallb_forall. intros x hx. assert (A1 := forallb_in _ _ _ af hx). assert (B1 := forallb_in _ _ _ hfs hx).
    cbn beta in A1, B1. rewrite A1, B1. reflexivity. }
  assert (BOTH : forall f m, (forall c, In c s -> act_of m c = f c) ->
     Some (walk sq (act_of m) None s) = Some (walk sq f None s) /\ Some (walk sq (fun c => act_of m (if c <? 128 then c else 0xFFFF)) None s) = Some (walk sq f None s)).
  { intros f m h. split; f_equal; apply walk_ext; [exact h|]. intros c hc. rewrite (A128 c hc). exact (h c hc). }
  destruct to as [|t0 to0]; [apply BOTH; intros c hc; rewrite (BM c hc); reflexivity|].
  destruct (expand_spec (t0 :: to0)) as [[ts n2]|]; [|reflexivity].
  destruct (ascii ts); cbn [negb]; [|exact I].
  destruct n; apply BOTH; intros c hc; cbn [act_of].
  - rewrite (BM c hc). reflexivity.
  - rewrite find_fold. reflexivity.
Qed.

(** hello.tr(el, ^x) *)
Lemma caret_bad : tr true [104; 101; 108; 108; 111] [101; 108] [94; 120] false = Some ([104; 120; 120; 120; 111], true)
  /\ ruby_tr [104; 101; 108; 108; 111] [101; 108] [94; 120] false = Some ([104; 94; 120; 120; 111], true).
Proof. split; reflexivity. Qed.
(** A range from + to a backslash and a z: tr and count *)
Lemma escape_bad : tr true [97; 122] [43; 45; 92; 122] [46] false = Some ([46; 46], true)
  /\ ruby_tr [97; 122] [43; 45; 92; 122] [46] false = Some ([97; 46], true)
  /\ count true [97; 122] [[43; 45; 92; 122]] = Some 2 /\ ruby_count [97; 122] [[43; 45; 92; 122]] = Some 1.
Proof. repeat split; reflexivity. Qed.
(** The empty string with the range z-a *)
Lemma empty_bad : tr true [] [122; 45; 97] [46] false = None /\ ruby_tr [] [122; 45; 97] [46] false = Some ([], false)
  /\ delete true [] [[122; 45; 97]] = None /\ ruby_delete [] [[122; 45; 97]] = Some [].
Proof. repeat split; reflexivity. Qed.
(** b.tr(b, cz-a): the range is not needed *)
Lemma unread_bad : tr true [98] [98] [99; 122; 45; 97] false = None /\ ruby_tr [98] [98] [99; 122; 45; 97] false = Some ([99], true).
Proof. split; reflexivity. Qed.
