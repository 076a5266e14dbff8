(** Membership and iteration of ranges of numbers. *)
From Coq Require Import List Bool ZArith QArith Qround Lia Lqa.
From Verif Require Import RangeModel RangeSpec.
Import ListNotations.
Local Open Scope Z_scope.

Lemma injZ x y : Qcompare (inject_Z x) (inject_Z y) = Z.compare x y.
Proof. unfold Qcompare, inject_Z. cbn. now rewrite !Z.mul_1_r. Qed.
Lemma cmp_fin a b x y : value a = Some x -> value b = Some y -> cmp a b = Some (Qcompare x y).
Proof. destruct a, b; cbn; intros A B; try discriminate; injection A as <-; injection B as <-; try reflexivity. now rewrite injZ. Qed.
Ltac qcase x y := destruct (Qcompare_spec x y).

Theorem cover_val_ok r v x : value v = Some x -> (cover_val r v = true <-> inside r x).
Proof.
  intros V. unfold cover_val, inside. rewrite andb_true_iff.
  assert (A : (match beg r with Some b => match cmp b v with None => false | Some c => negb (gt c) end | None => true end) = true <-> from_ok (beg r) x).
  { destruct (beg r) as [b|]; [|cbn; tauto]. destruct b as [z|q|n|].
    - rewrite (cmp_fin (I z) v _ _ eq_refl V). cbn. qcase (inject_Z z) x; cbn; split; intros; try discriminate; try reflexivity; lra.
    - rewrite (cmp_fin (F q) v _ _ eq_refl V). cbn. qcase q x; cbn; split; intros; try discriminate; try reflexivity; lra.
    - destruct v; cbn in V; try discriminate; cbn; destruct n; cbn; intuition congruence.
    - cbn. intuition congruence. }
  assert (B : (match fin r with Some e => match cmp v e with None => false | Some c => negb (if excl r then ge c else gt c) end | None => true end) = true <-> to_ok (fin r) (excl r) x).
  { destruct (fin r) as [b|]; [|cbn; tauto]. destruct b as [z|q|n|].
    - rewrite (cmp_fin v (I z) _ _ V eq_refl). cbn. qcase x (inject_Z z); destruct (excl r); cbn; split; intros; try discriminate; try reflexivity; lra.
    - rewrite (cmp_fin v (F q) _ _ V eq_refl). cbn. qcase x q; destruct (excl r); cbn; split; intros; try discriminate; try reflexivity; lra.
    - destruct v; cbn in V; try discriminate; cbn; destruct n, (excl r); cbn; intuition congruence.
    - destruct v; cbn; intuition congruence. }
  tauto.
Qed.

Lemma plain_cases n : plain n = true -> n = None \/ exists a q, n = Some a /\ value a = Some q.
Proof. destruct n as [[]|]; cbn; intros; try discriminate; [right; do 2 eexists; split; reflexivity ..|now left]. Qed.

Ltac ends s H :=
  let A := fresh in let B := fresh in let ex := fresh "ex" in let bb := fresh "bb" in let ee := fresh "ee" in
  apply andb_prop in H as [A B]; apply plain_cases in A; apply plain_cases in B;
  destruct s as [bb ee ex]; cbn [beg fin excl] in *;
  destruct A as [->|(? & ? & -> & ?)]; destruct B as [->|(? & ? & -> & ?)].
Lemma from_v a q x : value a = Some q -> (from_ok (Some a) x <-> (q <= x)%Q).
Proof. destruct a; cbn; intros E; try discriminate; injection E as <-; tauto. Qed.
Lemma to_v a q ex x : value a = Some q -> (to_ok (Some a) ex x <-> if ex then (x < q)%Q else (x <= q)%Q).
Proof. destruct a; cbn; intros E; try discriminate; injection E as <-; tauto. Qed.

Ltac vals := repeat match goal with
  | H : value ?a = Some ?q |- context [from_ok (Some ?a) ?x] => rewrite (from_v a q x H)
  | H : value ?a = Some ?q |- context [to_ok (Some ?a) ?ex ?x] => rewrite (to_v a q ex x H)
  | H : value ?a = Some _, H' : value ?b = Some _ |- context [cmp ?a ?b] => rewrite (cmp_fin a b _ _ H H')
  end.
Ltac valsin A := repeat match goal with
  | H : value ?a = Some ?q |- _ => match type of A with context [from_ok (Some a) ?x] => rewrite (from_v a q x H) in A | context [to_ok (Some a) ?ex ?x] => rewrite (to_v a q ex x H) in A end
  end.
Ltac point q := exists q; vals; cbn [from_ok to_ok]; repeat split; trivial; lra.
Lemma empty_ok r : finite r = true -> (empty_q r = true <-> ~ inhabited r).
Proof.
  intros H. unfold inhabited, inside, empty_q. split.
  - intros E (x & A & B). revert E A B. ends r H; cbn [beg fin excl]; vals; try discriminate.
    match goal with |- context [Qcompare ?x ?y] => qcase x y end; destruct ex; cbn; intros; try discriminate; lra.
  - intros N. revert N. ends r H; cbn [beg fin excl]; vals;
      repeat match goal with |- context [Qcompare ?x ?y] => qcase x y end; destruct ex; cbn [ge gt]; intros N; trivial; exfalso; apply N;
      first [point 0%Q | match goal with q : Q |- _ => first [point q | point (q - 1)%Q] end].
Qed.
Theorem overlap_ok s o : finite s = true -> finite o = true -> (overlap s o = true <-> exists x, inside s x /\ inside o x).
Proof.
  intros HS HO.
  assert (BACK : (exists x, inside s x /\ inside o x) -> overlap s o = true).
  { intros (x & A & B). unfold overlap.
    destruct (empty_q s) eqn:E; [apply empty_ok in E; trivial; destruct E; now exists x|].
    destruct (empty_q o) eqn:E'; [apply empty_ok in E'; trivial; destruct E'; now exists x|].
    clear E E'. destruct A as [A1 A2], B as [B1 B2].
    ends s HS; ends o HO; cbn [beg fin excl] in *; vals; valsin A1; valsin A2; valsin B1; valsin B2; trivial;
      repeat match goal with |- context [Qcompare ?x ?y] => qcase x y end;
      destruct ex, ex0; cbn [le lt]; trivial; exfalso; lra. }
  split; [|exact BACK]. clear BACK. unfold overlap.
  destruct (empty_q s) eqn:E; [discriminate|]. destruct (empty_q o) eqn:E'; [discriminate|].
  revert E E'. unfold inside, empty_q.
  ends s HS; ends o HO; cbn [beg fin excl]; vals;
    repeat match goal with |- context [Qcompare ?x ?y] => qcase x y end;
    destruct ex, ex0; cbn [le lt ge gt]; intros E1 E2 E3; try discriminate;
    first [point 0%Q | match goal with q : Q |- _ => first [point q | point (q - 1)%Q] end
          | match goal with q : Q, q' : Q |- _ => destruct (Qlt_le_dec q q'); first [point q | point q' | point (q - 1)%Q | point (q' - 1)%Q] end].
Qed.

(** cover? of a range: an inhabited one all of whose numbers are in the receiver is covered *)
Ltac lraq := first [exact Logic.I | lra].
Ltac use SUB q := exfalso; destruct (SUB q) as [?S1 ?S2]; [split; vals; cbn [from_ok to_ok]; lraq|]; revert S1 S2; vals; intros S1 S2; lra.
Ltac splits := repeat match goal with |- context [Qcompare ?x ?y] => qcase x y; cbn [ge gt le lt negb andb orb Bool.eqb] end.
Theorem cover_range_complete s v : finite s = true -> finite v = true -> (fin v = None -> excl s = true -> excl v = true) ->
  inhabited v -> (forall x, inside v x -> inside s x) -> cover_range s v = true.
Proof.
  intros HS HV NE (w & W1 & W2) SUB. pose proof (SUB w (conj W1 W2)) as [U1 U2]. unfold cover_range, cover_val, inside in *.
  revert W1 W2 U1 U2. ends s HS; ends v HV; cbn [beg fin excl]; vals; destruct ex, ex0; cbn [Bool.eqb negb andb]; intros W1 W2 U1 U2;
    cbn [beg fin excl] in *; try (specialize (NE eq_refl eq_refl); discriminate); splits; trivial;
    try (exfalso; lra);
    repeat match goal with |- context [if negb (?c && true) then _ else _] => rewrite (andb_true_r c) end.
  all: try match goal with q : Q |- _ => first [use SUB q | use SUB (q - 1)%Q | use SUB (q + 1)%Q] end.
  all: try match goal with q : Q, q' : Q |- _ => first [use SUB ((q + q') * (1#2))%Q | destruct (Qlt_le_dec q q'); first [use SUB (q - 1)%Q | use SUB (q' - 1)%Q | use SUB (q + 1)%Q | use SUB (q' + 1)%Q]] end.
Qed.
Lemma cover_range_inhabited s v : finite v = true -> cover_range s v = true -> inhabited v.
Proof.
  intros HV C. destruct (empty_q v) eqn:E.
  - exfalso. revert C E. unfold cover_range, empty_q. destruct (beg v) as [b|]; [|discriminate]. destruct (fin v) as [e|]; [|discriminate]. destruct (beg s), (fin s);
      (destruct (cmp b e) as [[]|]; destruct (excl v); cbn; discriminate).
  - unfold empty_q in E. revert E. unfold inhabited, inside. ends v HV; cbn [beg fin excl]; vals; splits; destruct ex; cbn [ge gt]; intros E; try discriminate;
      first [point 0%Q | match goal with q : Q |- _ => first [point q | point (q - 1)%Q] end].
Qed.
Theorem cover_range_exact s v : finite s = true -> finite v = true -> excl s = true \/ excl v = false -> cover_range s v = true ->
  forall x, inside v x -> inside s x.
Proof.
  intros HS HV X C x [A1 A2]. revert C A1 A2. unfold cover_range, cover_val, inside.
  ends s HS; ends v HV; cbn [beg fin excl] in *; vals; destruct ex, ex0; cbn [Bool.eqb negb andb]; try (destruct X; discriminate); splits; intros; try discriminate; split; lraq.
Qed.
Lemma max_excl v m : excl v = true -> max v = Val m -> exists e, fin v = Some (I e) /\ m = I (e - 1).
Proof.
  unfold max. intros ->. destruct (fin v) as [[e| | |]|]; try discriminate; destruct (beg v) as [b|]; try discriminate;
    try (destruct (cmp b _) as [[]|]; discriminate).
  - destruct (cmp b (I e)) as [[]|]; try discriminate; intros E; injection E as <-; eauto.
  - intros E; injection E as <-; eauto.
Qed.
Theorem cover_range_integers s v : finite s = true -> finite v = true -> cover_range s v = true -> forall z, has v z -> has s z.
Proof.
  intros HS HV C z A.
  destruct (excl s) eqn:X1. { exact (cover_range_exact s v HS HV (or_introl X1) C _ A). }
  destruct (excl v) eqn:X2. 2:{ exact (cover_range_exact s v HS HV (or_intror X2) C _ A). }
  destruct A as [A1 A2].
  revert C. unfold cover_range, cover_val.
  pose proof (max_excl v) as M. rewrite X1, X2 in *. specialize (fun m => M m eq_refl). revert M. generalize (max v) as mv. intros mv M.
  unfold has, inside. rewrite X1. revert A1 A2 X1 X2.
  ends s HS; ends v HV; cbn [beg fin excl] in *; vals; cbn [Bool.eqb negb andb]; splits; intros A1 A2 X1 X2 C; try discriminate; try (split; lraq).
  all: destruct mv as [m| |]; try discriminate; destruct (M m eq_refl) as (e & E & ->); injection E as ->.
  all: match goal with H : value (I _) = Some _ |- _ => injection H as <- end.
  all: match goal with C : context [cmp ?a (I (?e - 1))] |- context [inject_Z ?z] =>
         rewrite (cmp_fin a (I (e - 1)) _ _ ltac:(eassumption) eq_refl) in C;
         assert (inject_Z z <= inject_Z (e - 1))%Q by (rewrite <- Zle_Qle; apply Z.lt_le_pred; rewrite Zlt_Qlt; exact A2) end.
  all: revert C; splits; intros C; try discriminate; split; lraq.
Qed.
