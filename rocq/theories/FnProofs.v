(** Proofs for C14. *)
From Coq Require Import ZArith List Bool Arith Lia.
From Verif Require Import FnSpec FnModel.
Import ListNotations.
Open Scope Z_scope.

(** *** The language *)
Section L.
Variable fd : Z -> Z.
Definition is_star (t : tok) : bool := match t with Star => true | _ => false end.
Definition tok_ok (t : tok) (a : Z * bool) : bool :=
  match t with
  | Any => negb (snd a)
  | Class n its => negb (snd a) && xorb n (in_class fd its (fst a))
  | Lit x => fd x =? fd (fst a)
  | _ => false
  end.
Notation lang := (lang fd).
Lemma lang_cons k ts a s : is_star k = false -> (lang (k :: ts) (a :: s) <-> tok_ok k a = true /\ lang ts s).
Proof.
  intro hk. destruct a as [c g]. split.
  - intro h. inversion h; subst; cbn in *; try discriminate; auto. split; auto. apply Z.eqb_eq; auto.
  - intros [h1 h2]. destruct k; cbn in *; try discriminate.
    + destruct g; try discriminate. constructor; auto.
    + apply Z.eqb_eq in h1. constructor; auto.
    + destruct g; try discriminate. constructor; auto.
Qed.
Lemma lang_nil_cons k ts : is_star k = false -> ~ lang (k :: ts) [].
Proof. intros hk h. inversion h; subst; discriminate. Qed.
Lemma lang_nil s : lang [] s <-> s = [].
Proof. split; [intro h; inversion h; auto|intros ->; constructor]. Qed.
Lemma lang_star_nil ts : lang (Star :: ts) [] <-> lang ts [].
Proof. split; intro h; [inversion h; auto|constructor; auto]. Qed.
Lemma lang_star_cons ts a s : lang (Star :: ts) (a :: s) <-> lang ts (a :: s) \/ (snd a = false /\ lang (Star :: ts) s).
Proof.
  split.
  - intro h. inversion h; subst; auto.
  - intros [h|[h1 h2]]; [constructor; auto|]. destruct a; cbn in h1; subst. apply L_star; auto.
Qed.
Lemma lang_star_star ts s : lang (Star :: Star :: ts) s <-> lang (Star :: ts) s.
Proof.
  induction s as [|a s IH].
  - rewrite !lang_star_nil. reflexivity.
  - rewrite (lang_star_cons (Star :: ts)), IH, lang_star_cons. tauto.
Qed.
Definition weight (ts : list tok) : nat := length (filter (fun t => negb (is_star t)) ts).
Lemma lang_len ts s : lang ts s -> (weight ts <= length s)%nat.
Proof. unfold weight. induction 1; cbn in *; lia. Qed.

(** Where the part after a starless piece is matched. *)
Lemma lang_mid mid R : forall s, Forall (fun t => is_star t = false) mid -> lang (mid ++ R) s ->
  lang R (skipn (length mid) s) /\ (length mid <= length s)%nat.
Proof.
  induction mid as [|k mid IH]; intros s hm h; [split; [auto|cbn; lia]|].
  inversion hm; subst. destruct s as [|a s]; [apply lang_nil_cons in h; tauto|]. cbn [app] in h.
  apply lang_cons in h as [_ h]; auto. cbn. destruct (IH s) as [h1 h2]; auto. split; auto. lia.
Qed.
Lemma skipn_add {X} (a b : nat) (l : list X) : skipn a (skipn b l) = skipn (b + a) l.
Proof. revert l. induction b as [|b IH]; intros l; cbn; auto. destruct l; [apply skipn_nil|apply IH]. Qed.
Lemma lang_star_some ts s : lang (Star :: ts) s -> exists k, (k <= length s)%nat /\ lang ts (skipn k s).
Proof.
  induction s as [|a s IH]; intro h.
  - exists O. split; auto. apply lang_star_nil; auto.
  - apply lang_star_cons in h as [h|[_ h]]; [exists O; split; [lia|auto]|]. destruct (IH h) as (k & h1 & h2). exists (S k). cbn. split; [lia|auto].
Qed.
Definition plain (s : list (Z * bool)) : Prop := Forall (fun a => snd a = false) s.
Lemma lang_absorb ts k : forall s, plain s -> (k <= length s)%nat -> lang ts (skipn k s) -> lang (Star :: ts) s.
Proof.
  induction k as [|k IH]; intros s hp hk h; [constructor; auto|]. destruct s as [|a s]; [cbn in hk; lia|].
  inversion hp; subst. apply lang_star_cons. right. split; auto. apply IH; auto. cbn in hk; lia.
Qed.
Lemma plain_skipn k s : plain s -> plain (skipn k s).
Proof. unfold plain. rewrite !Forall_forall. intros h x hx. apply h. rewrite <- (firstn_skipn k s). apply in_or_app; auto. Qed.
End L.

(** *** Units and tokens *)
Notation T ne p := (toks None (units ne p)).
Lemma units_plain ne c t : (c =? 92) && negb ne = false -> units ne (c :: t) = (c, false) :: units ne t.
Proof. intro h. cbn [units]. rewrite h. reflexivity. Qed.
Lemma units_read ne p c r : read_char ne p = Some (c, r) ->
  exists e, units ne p = (c, e) :: units ne r /\ close (c, e) = false /\ (length r < length p)%nat.
Proof.
  unfold read_char. destruct p as [|ch t]; [discriminate|]. destruct (Z.eqb_spec ch 93) as [->|n]; [discriminate|].
  destruct ((ch =? 92) && negb ne) eqn:E.
  - destruct t as [|x t']; intro h; inversion h; subst; cbn [units]; rewrite E.
    + exists false. cbn. repeat split; auto; unfold close; cbn. apply Z.eqb_neq; auto.
    + exists true. repeat split; auto; cbn; lia.
  - intro h; inversion h; subst. exists false. rewrite units_plain by auto. repeat split; auto. unfold close; cbn. apply Z.eqb_neq; auto.
Qed.
Lemma units_93 ne t : units ne (93 :: t) = (93, false) :: units ne t. Proof. apply units_plain. reflexivity. Qed.
Lemma read_none ne p : read_char ne p = None -> p = [] \/ exists t, p = 93 :: t.
Proof.
  unfold read_char. destruct p as [|ch t]; auto. destruct (Z.eqb_spec ch 93) as [->|n]; [eauto|].
  destruct ((ch =? 92) && negb ne); [destruct t|]; discriminate.
Qed.
Lemma units_not45 ne d r : (d =? 45) = false -> match units ne (d :: r) with b :: _ => is 45 b = false | [] => False end.
Proof. intro h. cbn [units]. destruct ((d =? 92) && negb ne); [destruct r|]; unfold is; cbn; auto. Qed.
Lemma units_nclose ne x r : match units ne (x :: r) with h :: _ => close h = (x =? 93) | [] => False end.
Proof.
  cbn [units]. destruct ((x =? 92) && negb ne) eqn:E; [|unfold close; cbn; auto].
  apply andb_true_iff in E as [E _]. apply Z.eqb_eq in E. subst. destruct r; unfold close; cbn; auto.
Qed.

Section M.
Variable lower : Z -> Z.
Variable fl : flags.
Notation ne := (f_noescape fl).
Notation cf := (f_casefold fl).
Notation fd := (fold lower cf).
Notation T p := (toks None (units ne p)).

Lemma items_ok n : forall p negate c0 matched its, (length p < n)%nat -> matched = in_class fd its c0 ->
  exists r, items lower n ne cf negate (fd c0) matched p = Some r /\
  match r with
  | None => toks (Some (negate, its)) (units ne p) = [Never]
  | Some (m, rest) => exists its', toks (Some (negate, its)) (units ne p) = Class negate its' :: T rest
       /\ m = xorb negate (in_class fd its' c0) /\ (length rest < length p)%nat
  end.
Proof.
  induction n as [|n IH]; intros p negate c0 matched its hn hm; [lia|]. cbn [items].
  destruct p as [|ch t]; [eexists; split; [reflexivity|reflexivity]|].
  destruct (Z.eqb_spec ch 93) as [->|nch].
  { eexists. split; [reflexivity|]. exists its. rewrite units_93. cbn. split; auto. split; [subst; apply xorb_comm|lia]. }
  destruct (read_char ne (ch :: t)) as [[lo p1]|] eqn:R.
  2: { apply read_none in R as [R|[t' R]]; [discriminate|congruence]. }
  destruct (units_read _ _ _ _ R) as (e & U & C & L).
  assert (single : forall its2, its2 = (lo, lo) :: its -> matched || (fd lo =? fd c0) = in_class fd its2 c0).
  { intros its2 ->. unfold in_class. cbn [existsb fst snd]. fold (in_class fd its c0). rewrite <- hm, orb_comm. f_equal.
    destruct (Z.eqb_spec (fd lo) (fd c0)); symmetry; [apply andb_true_iff; split; apply Z.leb_le; lia|].
    apply andb_false_iff. destruct (Z.leb_spec (fd lo) (fd c0)); [right; apply Z.leb_gt; lia|left; auto]. }
  assert (SING : toks (Some (negate, its)) ((lo, e) :: units ne p1) = toks (Some (negate, (lo, lo) :: its)) (units ne p1) ->
    exists r, items lower n ne cf negate (fd c0) (matched || (fd lo =? fd c0)) p1 = Some r /\
     match r with
     | None => toks (Some (negate, its)) (units ne (ch :: t)) = [Never]
     | Some (m, rest) => exists its', toks (Some (negate, its)) (units ne (ch :: t)) = Class negate its' :: T rest
       /\ m = xorb negate (in_class fd its' c0) /\ (length rest < length (ch :: t))%nat
     end).
  { intro h. destruct (IH p1 negate c0 _ _ ltac:(lia) (single _ eq_refl)) as (r & h1 & h2). exists r. split; auto.
    rewrite U, h. destruct r as [[m rest]|]; auto. destruct h2 as (its' & h2 & h3 & h4). exists its'. repeat split; auto. lia. }
  destruct p1 as [|d [|nx p2]].
  - apply SING. cbn [toks]. rewrite C. reflexivity.
  - apply SING. cbn [toks]. rewrite C. cbn [units]. destruct ((d =? 92) && negb ne); reflexivity.
  - destruct ((d =? 45) && negb (nx =? 93)) eqn:D.
    + apply andb_true_iff in D as [D1 D2]. apply Z.eqb_eq in D1. subst d. apply negb_true_iff in D2.
      destruct (read_char ne (nx :: p2)) as [[hi p3]|] eqn:R2.
      2: { apply read_none in R2 as [R2|[t' R2]]; [discriminate|]. inversion R2; subst. discriminate. }
      destruct (units_read _ _ _ _ R2) as (e2 & U2 & C2 & L2).
      assert (h : toks (Some (negate, its)) (units ne (ch :: t)) = toks (Some (negate, (lo, hi) :: its)) (units ne p3)).
      { rewrite U, units_plain by reflexivity. cbn [toks]. rewrite C, U2. change (is 45 (45, false)) with true. rewrite C2. reflexivity. }
      destruct (IH p3 negate c0 (matched || ((fd lo <=? fd c0) && (fd c0 <=? fd hi))) ((lo, hi) :: its)) as (r & h1 & h2).
      * cbn [length] in *; lia.
      * unfold in_class. cbn [existsb fst snd]. fold (in_class fd its c0). rewrite hm, orb_comm. reflexivity.
      * exists r. split; auto. rewrite h. destruct r as [[m rest]|]; auto. destruct h2 as (its' & h2 & h3 & h4). exists its'. repeat split; auto.
        cbn [length] in *; lia.
    + apply SING. cbn [toks]. rewrite C. apply andb_false_iff in D as [D|D].
      * pose proof (units_not45 ne d (nx :: p2) D) as N. destruct (units ne (d :: nx :: p2)) as [|b [|h t']]; auto.
        rewrite N. reflexivity.
      * destruct (Z.eqb_spec d 45) as [->|nd].
        -- rewrite units_plain by reflexivity. pose proof (units_nclose ne nx p2) as N.
           destruct (units ne (nx :: p2)) as [|h t']; [tauto|]. rewrite N. apply negb_false_iff in D. rewrite D.
           cbn [negb]. rewrite andb_false_r. reflexivity.
        -- pose proof (units_not45 ne d (nx :: p2) (proj2 (Z.eqb_neq _ _) nd)) as N. destruct (units ne (d :: nx :: p2)) as [|b [|h t']]; auto.
           rewrite N. reflexivity.
Qed.

(** The character after the bracket is matched by the token. *)
Lemma bracket_ok t c : exists r, match_bracket lower ne cf t c = Some r /\
  match r with
  | None => T (91 :: t) = [Never]
  | Some (m, rest) => exists n its, T (91 :: t) = Class n its :: T rest /\ m = xorb n (in_class fd its c) /\ (length rest <= length t)%nat
  end.
Proof.
  unfold match_bracket. set (ng := match t with x :: _ => (x =? 33) || (x =? 94) | [] => false end).
  assert (H : T (91 :: t) = toks (Some (ng, [])) (units ne (if ng then tl t else t))).
  { rewrite units_plain by reflexivity. subst ng. destruct t as [|x t]; [reflexivity|]. cbn [tl].
    destruct ((x =? 33) || (x =? 94)) eqn:N.
    - rewrite units_plain.
      2: { apply orb_true_iff in N as [N|N]; apply Z.eqb_eq in N; subst; reflexivity. }
      cbn [toks]. change (is 42 (91, false)) with false. change (is 63 (91, false)) with false. change (is 91 (91, false)) with true. cbn iota.
      unfold is. cbn [fst snd negb andb]. rewrite N. reflexivity.
    - assert (X : exists b r, units ne (x :: t) = b :: r /\ is 33 b || is 94 b = false).
      { cbn [units]. destruct ((x =? 92) && negb ne) eqn:E; [|eexists _, _; split; [reflexivity|unfold is; cbn; auto]].
        destruct t; eexists _, _; (split; [reflexivity|unfold is; cbn; auto]). }
      destruct X as (b & r & -> & X). cbn [toks]. change (is 42 (91, false)) with false. change (is 63 (91, false)) with false. change (is 91 (91, false)) with true. cbn iota.
      rewrite X. reflexivity. }
  assert (Lt : (length (if ng then tl t else t) <= length t)%nat) by (destruct ng; [destruct t; cbn; lia|auto]).
  destruct (items_ok (S (length (if ng then tl t else t))) (if ng then tl t else t) ng c false []) as (r & h1 & h2); auto.
  exists r. split; auto. destruct r as [[m rest]|].
  - destruct h2 as (its & h2 & h3 & h4). exists ng, its. rewrite H, h2. repeat split; auto. lia.
  - congruence.
Qed.

Lemma T_star t : T (42 :: t) = Star :: T t. Proof. rewrite units_plain by reflexivity. reflexivity. Qed.
Lemma T_any t : T (63 :: t) = Any :: T t. Proof. rewrite units_plain by reflexivity. reflexivity. Qed.
Lemma T_lit c t : c <> 42 -> c <> 63 -> c <> 91 ->
  let (c1, t1) := if (c =? 92) && negb ne then match t with x :: t' => (x, t') | [] => (c, t) end else (c, t) in
  T (c :: t) = Lit c1 :: T t1 /\ (length t1 <= length t)%nat.
Proof.
  intros n1 n2 n3. assert (X : toks None ((c, false) :: units ne t) = Lit c :: T t).
  { cbn [toks]. unfold is. cbn [fst snd negb andb].
    apply Z.eqb_neq in n1, n2, n3. rewrite n1, n2, n3. reflexivity. }
  destruct ((c =? 92) && negb ne) eqn:E; [|rewrite units_plain by auto; auto].
  destruct t as [|x t']; cbn [units]; rewrite E.
  - split; auto.
  - cbn [toks]. unfold is. cbn [fst snd negb andb]. split; auto. cbn; lia.
Qed.
Lemma skip_stars_lang t s : lang fd (Star :: T (skip_stars t)) s <-> lang fd (Star :: T t) s.
Proof.
  induction t as [|c t IH]; [reflexivity|]. cbn [skip_stars]. destruct (Z.eqb_spec c 42) as [->|n]; [|reflexivity].
  rewrite IH, T_star. symmetry. apply lang_star_star.
Qed.
Lemma skip_stars_len t : (length (skip_stars t) <= length t)%nat.
Proof. induction t as [|c t IH]; cbn; auto. destruct (c =? 42); cbn; lia. Qed.
Lemma T_head p : p <> [] -> hd 0 p <> 42 -> exists k ts, T p = k :: ts /\ is_star k = false.
Proof.
  destruct p as [|c t]; [congruence|]. cbn [hd]. intros _ n.
  destruct (Z.eq_dec c 63) as [->|n2]; [rewrite T_any; eauto|].
  destruct (Z.eq_dec c 91) as [->|n3].
  - destruct (bracket_ok t 0) as (r & _ & h). destruct r as [[m rest]|]; [destruct h as (n' & its & -> & _)|rewrite h]; eauto.
  - pose proof (T_lit c t n n2 n3) as h. destruct (if (c =? 92) && negb ne then _ else _) as [c1 t1]. destruct h as [-> _]. eauto.
Qed.
Lemma all_stars_lang p : all_stars p = true <-> lang fd (T p) [].
Proof.
  induction p as [|c t IH]; [split; intro; [constructor|reflexivity]|]. cbn [all_stars].
  destruct (Z.eqb_spec c 42) as [->|n].
  - rewrite T_star, lang_star_nil, <- IH. reflexivity.
  - destruct (T_head (c :: t)) as (k & ts & e & hk); [discriminate|exact n|]. rewrite e. split; [discriminate|].
    intro h. apply lang_nil_cons in h; tauto.
Qed.

(** *** The loop *)
Definition Gs (z : bool) (s : list Z) : list (Z * bool) :=
  match s with [] => [] | c :: t => (c, negb (f_dotmatch fl) && z && (c =? 46)) :: map (fun x => (x, false)) t end.
Lemma Gs_false s : Gs false s = map (fun x => (x, false)) s.
Proof. destruct s; cbn; auto. rewrite andb_false_r. reflexivity. Qed.
Lemma Gs_cons z c t : Gs z (c :: t) = (c, negb (f_dotmatch fl) && z && (c =? 46)) :: Gs false t.
Proof. cbn. rewrite Gs_false. reflexivity. Qed.
Lemma Gs_len z s : length (Gs z s) = length s.
Proof. destruct s; cbn; auto. rewrite map_length. auto. Qed.
Lemma Gs_plain s : plain (Gs false s).
Proof. rewrite Gs_false. apply Forall_forall. intros a h. apply in_map_iff in h as (x & <- & _). reflexivity. Qed.
Lemma Gs_skipn k s : Gs false (skipn k s) = skipn k (Gs false s).
Proof. rewrite !Gs_false. symmetry. apply skipn_map. Qed.

(** Matches in which the last star takes at least one more character. *)
Definition altl (star : option (list Z * list Z * bool)) : Prop :=
  match star with
  | Some (sp, c :: t, sz) => negb (f_dotmatch fl) && sz && (c =? 46) = false /\ lang fd (Star :: T sp) (Gs false t)
  | _ => False
  end.
Definition linked (p s : list Z) (z : bool) (star : option (list Z * list Z * bool)) : Prop :=
  match star with
  | None => True
  | Some (sp, ss, sz) => exists mid, Forall (fun t => is_star t = false) mid /\ T sp = mid ++ T p
      /\ length ss = (length mid + length s)%nat /\ s = skipn (length mid) ss
      /\ (mid = [] -> z = sz) /\ (mid <> [] -> z = false)
  end.
Definition room (star : option (list Z * list Z * bool)) (s : list Z) : nat :=
  match star with Some (_, ss, _) => length ss | None => S (length s) end.
Definition sp_ok (L : nat) (star : option (list Z * list Z * bool)) : Prop :=
  match star with Some (sp, _, _) => (length sp <= L)%nat | None => True end.

Lemma seg_loop_ok L n : forall p s z star, (room star s * S L + length p < n)%nat -> (length p <= L)%nat -> sp_ok L star -> linked p s z star ->
  exists b, seg_loop lower n fl p s z star = Some b /\ (b = true <-> lang fd (T p) (Gs z s) \/ altl star).
Proof.
  induction n as [|n IH]; intros p s z star hn hL hsp hl; [lia|].
  cbn [seg_loop]. destruct s as [|ch s'].
  { exists (all_stars p). split; auto. rewrite all_stars_lang. split; [auto|]. intros [h|h]; auto. exfalso.
    destruct star as [[[sp [|c t]] sz]|]; cbn in h; try tauto. destruct hl as (mid & m1 & m2 & m3 & _).
    destruct h as [_ h]. apply lang_len in h. rewrite m2, Gs_len in h. unfold weight in h. cbn [filter is_star negb] in h.
    rewrite filter_app, app_length in h. cbn [length] in m3.
    assert (X : filter (fun t => negb (is_star t)) mid = mid).
    { clear -m1. induction m1 as [|x l h hl IHl]; cbn; auto. rewrite h. cbn. congruence. }
    rewrite X in h. lia. }
  set (back := match star with Some (sp, sc :: ss, sz) => if negb (f_dotmatch fl) && sz && (sc =? 46) then Some false else seg_loop lower n fl sp ss false (Some (sp, ss, false)) | _ => Some false end).
  assert (BACK : ~ lang fd (T p) (Gs z (ch :: s')) -> exists b, back = Some b /\ (b = true <-> lang fd (T p) (Gs z (ch :: s')) \/ altl star)).
  { intro hno. subst back. destruct star as [[[sp [|sc ss]] sz]|].
    - exists false. split; auto. cbn. split; [discriminate|tauto].
    - cbn [altl]. destruct (negb (f_dotmatch fl) && sz && (sc =? 46)).
      + exists false. split; auto. split; [discriminate|]. intros [h|[h _]]; [tauto|discriminate].
      + destruct (IH sp ss false (Some (sp, ss, false))) as (b & e & hb); auto.
        * cbn [room] in *. cbn [sp_ok] in hsp. cbn [length] in hn. nia.
        * cbn. exists []. repeat split; auto; congruence.
        * exists b. split; auto. rewrite hb. cbn [altl]. rewrite andb_false_r. cbn [andb].
          destruct ss as [|c t].
          -- cbn [Gs]. rewrite lang_star_nil. tauto.
          -- rewrite Gs_cons. rewrite lang_star_cons. cbn [snd]. rewrite andb_false_r. cbn [andb]. tauto.
    - exists false. split; auto. cbn. split; [discriminate|tauto]. }
  assert (STEP : forall k rest, T p = k :: T rest -> is_star k = false -> (length rest < length p)%nat ->
     tok_ok fd k (ch, negb (f_dotmatch fl) && z && (ch =? 46)) = true ->
     exists b, seg_loop lower n fl rest s' false star = Some b /\ (b = true <-> lang fd (T p) (Gs z (ch :: s')) \/ altl star)).
  { intros k rest e hk hr hok. destruct (IH rest s' false star) as (b & e' & hb); auto.
    - destruct star as [[[sp ss] sz]|]; cbn [room] in *; [lia|]. cbn [length] in *. nia.
    - lia.
    - destruct star as [[[sp ss] sz]|]; cbn in *; auto. destruct hl as (mid & m1 & m2 & m3 & m4 & m5 & m6).
      exists (mid ++ [k]). rewrite <- app_assoc. cbn [app]. rewrite <- e, app_length. cbn [length].
      repeat split; auto.
      + apply Forall_app; auto.
      + lia.
      + replace (length mid + 1)%nat with (length mid + 1)%nat by auto. rewrite <- skipn_add, <- m4. reflexivity.
      + intro h. destruct mid; discriminate.
    - exists b. split; auto. rewrite hb, e, Gs_cons, lang_cons by auto. tauto. }
  assert (NO : forall k ts, T p = k :: ts -> is_star k = false -> tok_ok fd k (ch, negb (f_dotmatch fl) && z && (ch =? 46)) = false -> ~ lang fd (T p) (Gs z (ch :: s'))).
  { intros k ts e hk hf h. rewrite e, Gs_cons, lang_cons in h by auto. destruct h as [h _]. congruence. }
  destruct p as [|c t].
  { apply BACK. cbn [units toks]. rewrite Gs_cons. intro h. apply lang_nil in h. discriminate. }
  destruct (Z.eqb_spec c 42) as [->|n1].
  { pose proof (skip_stars_len t) as SL.
    destruct (IH (skip_stars t) (ch :: s') z (Some (skip_stars t, ch :: s', z))) as (b & e & hb).
    - cbn [length] in *. destruct star as [[[sp ss] sz]|]; cbn [room] in *.
      + destruct hl as (mid & _ & _ & m3 & _). cbn [length] in *. nia.
      + cbn [length] in *. nia.
    - cbn [length] in *. lia.
    - cbn [length] in *. cbn. lia.
    - cbn. exists []. repeat split; auto; congruence.
    - exists b. split; auto. rewrite hb. rewrite T_star.
      assert (N : lang fd (T (skip_stars t)) (Gs z (ch :: s')) \/ altl (Some (skip_stars t, ch :: s', z)) <-> lang fd (Star :: T t) (Gs z (ch :: s'))).
      { rewrite <- skip_stars_lang. cbn [altl]. rewrite Gs_cons, lang_star_cons. cbn [snd]. tauto. }
      rewrite N. split; auto. intros [h|h]; auto.
      destruct star as [[[sp [|sc ss]] sz]|]; cbn [altl] in h; try tauto. destruct h as [hg h].
      destruct hl as (mid & m1 & m2 & m3 & m4 & m5 & m6). rewrite m2, T_star in h.
      apply lang_star_some in h as (k & hk & h). apply lang_mid in h as [h hlen]; auto. rewrite skipn_add in h.
      rewrite skipn_length in hlen. rewrite Gs_len in *.
      assert (h' : lang fd (Star :: T t) (skipn (k + length mid) (Gs false ss))) by exact h.
      destruct mid as [|m0 mid].
      + cbn in m4. inversion m4; subst. rewrite (m5 eq_refl). rewrite Gs_cons. apply lang_star_cons. right. split; auto.
        apply lang_star_star. cbn [length] in h'. rewrite Nat.add_0_r in h'. apply lang_absorb with (k := k); [apply Gs_plain|rewrite Gs_len; auto|exact h'].
      + rewrite (m6 ltac:(discriminate)). rewrite m4. cbn [length]. change (skipn (S (length mid)) (sc :: ss)) with (skipn (length mid) ss).
        rewrite Gs_skipn. apply lang_star_star. apply lang_absorb with (k := (k + 1)%nat).
        * apply plain_skipn, Gs_plain.
        * rewrite skipn_length, Gs_len. cbn [length] in hlen. lia.
        * rewrite skipn_add. cbn [length] in h'. replace (length mid + (k + 1))%nat with (k + S (length mid))%nat by lia. exact h'. }
  destruct (Z.eqb_spec c 63) as [->|n2].
  { pose proof (T_any t) as e. destruct (negb (f_dotmatch fl) && z && (ch =? 46)) eqn:g.
    - apply BACK. apply (NO _ _ e); auto.
    - apply (STEP _ _ e); auto. }
  destruct (Z.eqb_spec c 91) as [->|n3].
  { destruct (bracket_ok t ch) as (r & e & h). rewrite e.
    destruct (negb (f_dotmatch fl) && z && (ch =? 46)) eqn:g.
    - apply BACK. destruct r as [[m rest]|]; [destruct h as (ng & its & h1 & h2 & h3); eapply NO; eauto|eapply NO; eauto].
    - destruct r as [[m rest]|].
      + destruct h as (ng & its & h1 & h2 & h3). destruct m.
        * apply (STEP _ _ h1); auto. cbn [length]. lia.
        * apply BACK. apply (NO _ _ h1); auto.
      + apply BACK. eapply NO; eauto. }
  pose proof (T_lit c t n1 n2 n3) as h.
  destruct (if (c =? 92) && negb ne then match t with x :: t' => (x, t') | [] => (c, t) end else (c, t)) as [c1 t1].
  destruct h as [e hlen]. destruct (Z.eqb (fd c1) (fd ch)) eqn:q.
  - apply (STEP _ _ e); auto. cbn [length]. lia.
  - apply BACK. apply (NO _ _ e); auto.
Qed.

Lemma protect_Gs s : protect (f_dotmatch fl) s = Gs true s.
Proof. destruct s; cbn; auto. rewrite andb_true_r. reflexivity. Qed.

Theorem match_segment_ok p s : exists b, match_segment lower fl p s = Some b /\ (b = true <-> seg_lang lower fl p s).
Proof.
  destruct (seg_loop_ok (length p) (seg_fuel p s) p s true None) as (b & e & h).
  - cbn [room]. unfold seg_fuel. nia.
  - auto.
  - exact I.
  - exact I.
  - exists b. split; auto. rewrite h. unfold seg_lang. rewrite protect_Gs. cbn [altl].
    change (folding lower fl) with fd. tauto.
Qed.

Lemma chars_eq_ok a : forall b, chars_eq a b = true <-> a = b.
Proof.
  induction a as [|x a IH]; intros [|y b]; cbn; try (split; [discriminate|congruence]); [tauto|].
  rewrite andb_true_iff, Z.eqb_eq, IH. split; [intros [-> ->]; auto|intro h; inversion h; auto].
Qed.
Lemma hidden_ok (s : list Z) : match s with c :: _ => c =? 46 | [] => false end = true <-> hidden s.
Proof.
  unfold hidden. destruct s as [|c s]; [split; [discriminate|intros [t e]; discriminate]|]. rewrite Z.eqb_eq.
  split; [intros ->; eauto|intros [t e]; inversion e; auto].
Qed.

Lemma path_glob ps strs : ps <> [] -> path_lang lower fl ([42; 42] :: ps) strs ->
  path_lang lower fl ps strs \/ exists s ss, strs = s :: ss /\ (f_dotmatch fl = true \/ ~ hidden s) /\ path_lang lower fl ([42; 42] :: ps) ss.
Proof. intros hp h. inversion h; subst; eauto 8. exfalso. auto. Qed.
Lemma path_seg p ps strs : ~ (p = [42; 42] /\ ps <> []) -> path_lang lower fl (p :: ps) strs ->
  exists s ss, strs = s :: ss /\ seg_lang lower fl p s /\ path_lang lower fl ps ss.
Proof. intros hp h. inversion h; subst; eauto 8; exfalso; auto. Qed.

Theorem match_segments_ok pats : forall strs, exists b, match_segments lower fl pats strs = Some b /\ (b = true <-> path_lang lower fl pats strs).
Proof.
  induction pats as [|p ps IH]; intro strs; cbn [match_segments].
  { eexists. split; [reflexivity|]. destruct strs; split; try discriminate; auto; [constructor|]. intro h. inversion h. }
  destruct (chars_eq p [42; 42] && negb match ps with [] => true | _ => false end) eqn:E.
  - apply andb_true_iff in E as [E1 E2]. apply chars_eq_ok in E1. subst p.
    assert (hne : ps <> []) by (destruct ps; [discriminate|discriminate]). clear E2.
    induction strs as [|s ss IHs].
    + destruct (IH []) as (b & -> & hb). destruct b; cbn [oor].
      * exists true. split; auto. split; auto. intro. apply P_glob0; auto. apply hb; auto.
      * exists false. split; auto. split; [discriminate|]. intro h. apply path_glob in h as [h|(s & ss & h & _)]; auto; [|discriminate]. apply hb; auto.
    + destruct (IH (s :: ss)) as (b & e & hb). rewrite e. destruct b; cbn [oor].
      { exists true. split; auto. split; auto. intro. apply P_glob0; auto. apply hb; auto. }
      destruct ((match s with c :: _ => c =? 46 | [] => false end) && negb (f_dotmatch fl)) eqn:H.
      * exists false. split; auto. split; [discriminate|]. apply andb_true_iff in H as [H1 H2]. apply hidden_ok in H1. apply negb_true_iff in H2.
        intro h. apply path_glob in h as [h|(s' & ss' & h & h' & _)]; auto; [apply hb; auto|]. inversion h; subst.
        destruct h' as [h'|h']; [congruence|tauto].
      * destruct IHs as (b' & e' & hb'). exists b'. split; auto. rewrite hb'. split.
        -- intro h. apply P_glob; auto. apply andb_false_iff in H as [H|H]; [right|left; apply negb_false_iff; auto].
           intro c. apply hidden_ok in c. congruence.
        -- intro h. apply path_glob in h as [h|(s' & ss' & h & h' & h2)]; auto; [apply hb in h; discriminate|]. inversion h; subst. auto.
  - assert (hng : ~ (p = [42; 42] /\ ps <> [])).
    { intros [h1 h2]. apply chars_eq_ok in h1. rewrite h1 in E. destruct ps; [congruence|discriminate]. }
    destruct strs as [|s ss].
    + exists false. split; auto. split; [discriminate|]. intro h. apply path_seg in h as (s & ss & h & _); auto. discriminate.
    + destruct (match_segment_ok p s) as (b & -> & hb). destruct b.
      * destruct (IH ss) as (b' & -> & hb'). exists b'. split; auto. rewrite hb'. split.
        -- intro h. apply P_seg; auto. apply hb; auto.
        -- intro h. apply path_seg in h as (s' & ss' & h & _ & h2); auto. inversion h; subst; auto.
      * exists false. split; auto. split; [discriminate|]. intro h. apply path_seg in h as (s' & ss' & h & h2 & _); auto. inversion h; subst.
        apply hb; auto.
Qed.

Theorem fnmatch1_ok p s : exists b, fnmatch1 lower fl p s = Some b /\ (b = true <-> in_lang lower fl p s).
Proof. unfold fnmatch1, in_lang. destruct (f_pathname fl); [apply match_segments_ok|apply match_segment_ok]. Qed.
End M.

(** *** Braces *)
Definition join : list (list node) -> list Z :=
  fix go (a : list (list node)) : list Z :=
    match a with
    | [] => []
    | [x] => flat_map render x
    | x :: t => flat_map render x ++ 44 :: go t
    end.
Lemma render_alt alts : render (Alt alts) = 123 :: join alts ++ [125]. Proof. reflexivity. Qed.
Lemma join_cons x y t : join (x :: y :: t) = renders x ++ 44 :: join (y :: t). Proof. reflexivity. Qed.
Definition wfl (ne ins : bool) (l : list node) : Prop := Forall (wf ne ins) l.
Lemma wf_alt ne ins alts : wf ne ins (Alt alts) <-> alts <> [] /\ Forall (wfl ne true) alts.
Proof.
  cbn [wf]. split; intros [h1 h2]; split; auto; clear h1.
  - induction alts as [|x t IH]; [constructor|]. destruct h2 as [h2 h3]. constructor; auto. clear -h2.
    induction x as [|m r IH]; [constructor|]. destruct h2. constructor; auto. apply IH; auto.
  - induction h2 as [|x t hx ht IH]; auto. split; auto. clear -hx. induction hx; auto.
Qed.
Definition node_ind2 (P : node -> Prop) (hc : forall c, P (Ch c)) (he : forall c, P (Esc c))
  (ha : forall alts, Forall (Forall P) alts -> P (Alt alts)) : forall n, P n :=
  fix go (n : node) : P n :=
    match n with
    | Ch c => hc c
    | Esc c => he c
    | Alt alts => ha alts ((fix g1 (a : list (list node)) : Forall (Forall P) a :=
        match a with
        | [] => Forall_nil _
        | x :: t => Forall_cons x ((fix g2 (l : list node) : Forall P l := match l with [] => Forall_nil _ | m :: r => Forall_cons m (go m) (g2 r) end) x) (g1 t)
        end) alts)
    end.

Lemma esc_if {X} ne c (t : list X) : (ne = false -> c <> 92) -> (if (c =? 92) && negb ne then t else []) = [].
Proof. intro h. destruct (Z.eqb_spec c 92) as [e|]; auto. destruct ne; auto. exfalso. exact (h eq_refl e). Qed.

(** Scanning a rendered node inside a group keeps it whole. *)
Lemma split_node ne n : forall d cur rest, wf ne true n -> split_commas ne d cur (render n ++ rest) = split_commas ne d (rev (render n) ++ cur) rest.
Proof.
  induction n as [c|c|alts IH] using node_ind2; intros d cur rest hw.
  - destruct hw as (h1 & h2 & h3 & h4). cbn [render app rev split_commas]. rewrite esc_if by auto.
    apply Z.eqb_neq in h1, h2. rewrite h1, h2. specialize (h3 eq_refl). apply Z.eqb_neq in h3. rewrite h3. reflexivity.
  - cbn in hw. subst ne. reflexivity.
  - apply wf_alt in hw as [hne hw].
    assert (L : forall (l : list node) cur rest d, wfl ne true l -> Forall (fun n => forall d cur rest, wf ne true n -> split_commas ne d cur (render n ++ rest) = split_commas ne d (rev (render n) ++ cur) rest) l ->
      split_commas ne d cur (renders l ++ rest) = split_commas ne d (rev (renders l) ++ cur) rest).
    { induction l as [|m l IHl]; intros cu re d' hl hi; [reflexivity|]. inversion hl; inversion hi; subst. unfold renders. cbn [flat_map].
      rewrite <- app_assoc. rewrite H5 by auto. fold (renders l). rewrite IHl by auto. rewrite rev_app_distr, <- app_assoc. reflexivity. }
    assert (J : forall alts cur rest d, Forall (wfl ne true) alts -> Forall (Forall (fun n => forall d cur rest, wf ne true n -> split_commas ne d cur (render n ++ rest) = split_commas ne d (rev (render n) ++ cur) rest)) alts ->
      split_commas ne (S d) cur (join alts ++ rest) = split_commas ne (S d) (rev (join alts) ++ cur) rest).
    { clear -L. induction alts as [|x [|y t] IHa]; intros cu re d' hl hi; [reflexivity| |]; inversion hl; inversion hi; subst.
      - apply (L x); auto.
      - rewrite join_cons. rewrite <- app_assoc, L by auto. cbn [app]. cbn [split_commas]. rewrite esc_if by lia.
        change (44 =? 123) with false. change (44 =? 125) with false. cbn [Nat.eqb andb]. rewrite andb_false_r. cbn iota.
        rewrite IHa by auto. f_equal. rewrite rev_app_distr. cbn [rev]. rewrite <- !app_assoc. reflexivity. }
    rewrite render_alt. cbn [app split_commas]. rewrite esc_if by lia. change (123 =? 123) with true. cbn iota.
    rewrite <- app_assoc, J by auto. cbn [app split_commas]. rewrite esc_if by lia.
    change (125 =? 123) with false. change (125 =? 125) with true. cbn [pred]. f_equal. cbn [rev].
    rewrite rev_app_distr. cbn [rev app]. rewrite <- !app_assoc. reflexivity.
Qed.
Lemma split_list ne l : forall d cur rest, wfl ne true l -> split_commas ne d cur (renders l ++ rest) = split_commas ne d (rev (renders l) ++ cur) rest.
Proof.
  induction l as [|m l IHl]; intros d cur rest hl; [reflexivity|]. inversion hl; subst. unfold renders. cbn [flat_map].
  rewrite <- app_assoc. rewrite split_node by auto. fold (renders l). rewrite IHl by auto. rewrite rev_app_distr, <- app_assoc. reflexivity.
Qed.
Lemma split_join ne alts : alts <> [] -> Forall (wfl ne true) alts -> split_commas ne 0 [] (join alts) = map renders alts.
Proof.
  induction alts as [|x [|y t] IH]; intros hne hw; [congruence| |]; inversion hw; subst.
  - change (join [x]) with (renders x). rewrite <- (app_nil_r (renders x)) at 1. rewrite split_list by auto. cbn. rewrite app_nil_r, rev_involutive. reflexivity.
  - rewrite join_cons, split_list by auto. cbn [split_commas]. rewrite esc_if by lia.
    change (44 =? 123) with false. change (44 =? 125) with false. change ((44 =? 44) && (0 =? 0)%nat) with true. cbn iota.
    rewrite IH by (auto; discriminate). rewrite app_nil_r, rev_involutive. reflexivity.
Qed.

Lemma group_node ne n : forall d pre i rest, wf ne true n -> find_group ne (S d) pre (Some i) (render n ++ rest) = find_group ne (S d) pre (Some (rev (render n) ++ i)) rest.
Proof.
  induction n as [c|c|alts IH] using node_ind2; intros d pre i rest hw.
  - destruct hw as (h1 & h2 & h3 & h4). cbn [render app rev find_group]. rewrite esc_if by auto.
    apply Z.eqb_neq in h1, h2. rewrite h1, h2. reflexivity.
  - cbn in hw. subst ne. reflexivity.
  - apply wf_alt in hw as [hne hw].
    assert (J : forall alts i rest d, Forall (wfl ne true) alts -> Forall (Forall (fun n => forall d pre i rest, wf ne true n -> find_group ne (S d) pre (Some i) (render n ++ rest) = find_group ne (S d) pre (Some (rev (render n) ++ i)) rest)) alts ->
      find_group ne (S d) pre (Some i) (join alts ++ rest) = find_group ne (S d) pre (Some (rev (join alts) ++ i)) rest).
    { clear. assert (L : forall (l : list node) d i rest, wfl ne true l -> Forall (fun n => forall d pre i rest, wf ne true n -> find_group ne (S d) pre (Some i) (render n ++ rest) = find_group ne (S d) pre (Some (rev (render n) ++ i)) rest) l ->
        find_group ne (S d) pre (Some i) (renders l ++ rest) = find_group ne (S d) pre (Some (rev (renders l) ++ i)) rest).
      { induction l as [|m l IHl]; intros d i re hl hi; [reflexivity|]. inversion hl; inversion hi; subst. unfold renders. cbn [flat_map].
        rewrite <- app_assoc. rewrite H5 by auto. fold (renders l). rewrite IHl by auto. rewrite rev_app_distr, <- app_assoc. reflexivity. }
      induction alts as [|x [|y t] IHa]; intros cu re d' hl hi; [reflexivity| |]; inversion hl; inversion hi; subst.
      - apply (L x); auto.
      - rewrite join_cons. rewrite <- app_assoc, L by auto. cbn [app]. cbn [find_group]. rewrite esc_if by lia.
        change (44 =? 123) with false. change (44 =? 125) with false. cbn iota.
        rewrite IHa by auto. f_equal. f_equal. rewrite rev_app_distr. cbn [rev]. rewrite <- !app_assoc. reflexivity. }
    rewrite render_alt. cbn [app find_group]. rewrite esc_if by lia. change (123 =? 123) with true. cbn iota.
    rewrite <- app_assoc, J by auto. cbn [app find_group]. rewrite esc_if by lia.
    change (125 =? 123) with false. change (125 =? 125) with true. cbn [pred]. cbn iota. f_equal. f_equal. cbn [rev].
    rewrite rev_app_distr. cbn [rev app]. rewrite <- !app_assoc. reflexivity.
Qed.
Lemma group_join ne alts : forall d pre i rest, Forall (wfl ne true) alts ->
  find_group ne (S d) pre (Some i) (join alts ++ rest) = find_group ne (S d) pre (Some (rev (join alts) ++ i)) rest.
Proof.
  assert (L : forall (l : list node) d pre i rest, wfl ne true l ->
    find_group ne (S d) pre (Some i) (renders l ++ rest) = find_group ne (S d) pre (Some (rev (renders l) ++ i)) rest).
  { induction l as [|m l IHl]; intros d pre i re hl; [reflexivity|]. inversion hl; subst. unfold renders. cbn [flat_map].
    rewrite <- app_assoc. rewrite group_node by auto. fold (renders l). rewrite IHl by auto. rewrite rev_app_distr, <- app_assoc. reflexivity. }
  induction alts as [|x [|y t] IHa]; intros d pre i rest hl; [reflexivity| |]; inversion hl; subst.
  - apply (L x); auto.
  - rewrite join_cons. rewrite <- app_assoc, L by auto. cbn [app]. cbn [find_group]. rewrite esc_if by lia.
    change (44 =? 123) with false. change (44 =? 125) with false. cbn iota.
    rewrite IHa by auto. f_equal. f_equal. rewrite rev_app_distr. cbn [rev]. rewrite <- !app_assoc. reflexivity.
Qed.

Definition flat (n : node) : Prop := match n with Alt _ => False | _ => True end.
Lemma group_flat ne l : forall pre rest, wfl ne false l -> Forall flat l ->
  find_group ne 0 pre None (renders l ++ rest) = find_group ne 0 (rev (renders l) ++ pre) None rest.
Proof.
  induction l as [|m l IH]; intros pre rest hw hf; [reflexivity|]. inversion hw; inversion hf; subst. unfold renders. cbn [flat_map].
  rewrite <- app_assoc. fold (renders l). destruct m as [c|c|a]; cbn [flat] in *; [| |tauto].
  - destruct H1 as (h1 & h2 & h3 & h4). cbn [render app find_group]. rewrite esc_if by auto.
    apply Z.eqb_neq in h1, h2. rewrite h1, h2. rewrite IH by auto. cbn [rev]. rewrite <- app_assoc. reflexivity.
  - cbn in H1. subst ne. cbn [render app find_group]. change ((92 =? 92) && negb false) with true. cbn iota. rewrite IH by auto. cbn [rev]. rewrite <- !app_assoc. reflexivity.
Qed.
Lemma group_first ne pre alts suf : wfl ne false pre -> Forall flat pre -> Forall (wfl ne true) alts ->
  find_group ne 0 [] None (renders pre ++ render (Alt alts) ++ renders suf) = Some (renders pre, join alts, renders suf).
Proof.
  intros h1 h2 h3. rewrite group_flat by auto. rewrite render_alt. cbn [app find_group]. rewrite esc_if by lia. change (123 =? 123) with true. cbn iota.
  rewrite <- app_assoc, group_join by auto. cbn [app find_group]. rewrite esc_if by lia.
  change (125 =? 123) with false. change (125 =? 125) with true. cbn [pred]. cbn iota. rewrite !app_nil_r, !rev_involutive. reflexivity.
Qed.

(** Expansions. *)
Lemma prod_one x r : prod [x] r = map (fun y => x ++ y) r.
Proof. unfold prod. cbn. apply app_nil_r. Qed.
Lemma prod_app a b r : prod (a ++ b) r = prod a r ++ prod b r.
Proof. unfold prod. apply flat_map_app. Qed.
Lemma prod_map x l r : prod (map (fun y => x ++ y) l) r = map (fun y => x ++ y) (prod l r).
Proof.
  induction l as [|y l IH]; auto. cbn [map]. change (prod ((x ++ y) :: map (fun y => x ++ y) l) r) with (map (fun z => (x ++ y) ++ z) r ++ prod (map (fun y => x ++ y) l) r).
  rewrite IH. change (prod (y :: l) r) with (map (fun z => y ++ z) r ++ prod l r). rewrite map_app, map_map. f_equal. apply map_ext. intro. apply eq_sym, app_assoc.
Qed.
Lemma prod_assoc a b c : prod (prod a b) c = prod a (prod b c).
Proof.
  induction a as [|x a IH]; auto. change (prod (x :: a) b) with (map (fun z => x ++ z) b ++ prod a b).
  rewrite prod_app, prod_map, IH. reflexivity.
Qed.
Lemma prod_flat {X} (f : X -> list (list Z)) l r : prod (flat_map f l) r = flat_map (fun x => prod (f x) r) l.
Proof. induction l as [|x l IH]; auto. cbn [flat_map]. rewrite prod_app, IH. reflexivity. Qed.
Lemma expansions_app a b : expansions (a ++ b) = prod (expansions a) (expansions b).
Proof.
  unfold expansions. induction a as [|m a IH]; cbn [app fold_right].
  - rewrite prod_one. cbn. symmetry. apply map_id.
  - rewrite IH, prod_assoc. reflexivity.
Qed.
Lemma expansions_flat l : Forall flat l -> expansions l = [renders l].
Proof.
  induction 1 as [|m l hm hl IH]; auto. change (expansions (m :: l)) with (prod (expand1 m) (expansions l)). rewrite IH.
  destruct m; cbn in *; tauto.
Qed.
Lemma flat_map_map {X Y W} (f : Y -> W) (g : X -> list Y) l : flat_map (fun x => map f (g x)) l = map f (flat_map g l).
Proof. induction l as [|x l IH]; auto. cbn. rewrite map_app, IH. reflexivity. Qed.
Lemma expansions_group pre alts suf : Forall flat pre ->
  flat_map (fun alt => expansions (pre ++ alt ++ suf)) alts = expansions (pre ++ Alt alts :: suf).
Proof.
  intro h. rewrite expansions_app, (expansions_flat pre h), prod_one.
  change (expansions (Alt alts :: suf)) with (prod (flat_map expansions alts) (expansions suf)). rewrite prod_flat, <- flat_map_map.
  apply flat_map_ext. intro a. rewrite expansions_app, (expansions_flat pre h), prod_one, expansions_app. reflexivity.
Qed.

Fixpoint groups (n : node) : nat :=
  match n with Alt alts => S (list_sum (map (fun x => list_sum (map groups x)) alts)) | _ => O end.
Definition groupsl (l : list node) : nat := list_sum (map groups l).
Lemma groupsl_app a b : groupsl (a ++ b) = (groupsl a + groupsl b)%nat.
Proof. unfold groupsl. rewrite map_app, list_sum_app. reflexivity. Qed.
Lemma groupsl_in alt alts : In alt alts -> (groupsl alt <= list_sum (map groupsl alts))%nat.
Proof. induction alts as [|x t IH]; cbn [In map list_sum fold_right]; [tauto|]. intros [->|h]; [|apply IH in h]; unfold list_sum in *; cbn [fold_right]; lia. Qed.
Lemma groups_len n : (groups n <= length (render n))%nat.
Proof.
  induction n as [c|c|alts IH] using node_ind2; [cbn; lia|cbn; lia|]. rewrite render_alt. cbn [length groups]. rewrite app_length. cbn [length].
  enough (list_sum (map groupsl alts) <= length (join alts))%nat. { unfold groupsl in *. lia. }
  assert (L : forall x, Forall (fun n => (groups n <= length (render n))%nat) x -> (groupsl x <= length (renders x))%nat).
  { clear. induction 1 as [|m l hm hl IHl]; [cbn; lia|]. unfold groupsl, renders in *. cbn [map flat_map]. rewrite app_length.
    change (list_sum (groups m :: map groups l)) with (groups m + list_sum (map groups l))%nat. lia. }
  induction alts as [|x [|y t] IHa]; [cbn; lia| |]; inversion IH; subst.
  - change (list_sum (map groupsl [x])) with (groupsl x + 0)%nat. change (join [x]) with (renders x). specialize (L _ H1). lia.
  - rewrite join_cons, app_length. cbn [length]. specialize (IHa H2). specialize (L _ H1).
    change (list_sum (map groupsl (x :: y :: t))) with (groupsl x + list_sum (map groupsl (y :: t)))%nat. lia.
Qed.
Lemma groupsl_len l : (groupsl l <= length (renders l))%nat.
Proof.
  induction l as [|m l IH]; [cbn; lia|]. unfold groupsl, renders in *. cbn [map flat_map]. rewrite app_length. pose proof (groups_len m).
  change (list_sum (groups m :: map groups l)) with (groups m + list_sum (map groups l))%nat. lia.
Qed.
Lemma flat_or l : Forall flat l \/ exists pre alts suf, l = pre ++ Alt alts :: suf /\ Forall flat pre.
Proof.
  induction l as [|m l IH]; [left; constructor|]. destruct m as [c|c|a].
  3: { right. exists [], a, l. split; auto. }
  1,2: destruct IH as [h|(pre & alts & suf & -> & h)]; [left; constructor; cbn; auto|right]; eexists (_ :: pre), alts, suf; split; [reflexivity|constructor; cbn; auto].
Qed.
Lemma wf_weaken ne n : wf ne true n -> wf ne false n.
Proof. destruct n; cbn; auto. intros (h1 & h2 & h3 & h4). auto. Qed.
Lemma renders_app a b : renders (a ++ b) = renders a ++ renders b.
Proof. apply flat_map_app. Qed.
Lemma concat_opt_map {X Y} (f : X -> option (list Y)) (g : X -> list Y) l : (forall x, In x l -> f x = Some (g x)) -> concat_opt (map f l) = Some (flat_map g l).
Proof.
  induction l as [|x l IH]; intro h; auto. cbn. rewrite h by (cbn; auto). rewrite IH; [reflexivity|]. intros y hy. apply h. cbn; auto.
Qed.

Lemma expand_ok ne n : forall l, wfl ne false l -> (groupsl l < n)%nat -> expand_braces n ne (renders l) = Some (expansions l).
Proof.
  induction n as [|n IH]; intros l hw hn; [lia|]. cbn [expand_braces]. destruct (flat_or l) as [h|(pre & alts & suf & -> & h)].
  - rewrite <- (app_nil_r (renders l)) at 1. rewrite group_flat by auto. cbn [find_group]. rewrite expansions_flat by auto. reflexivity.
  - apply Forall_app in hw as [h1 h2]. inversion h2 as [|? ? h3 h4]; subst. apply wf_alt in h3 as [h3 h5].
    rewrite renders_app. change (renders (Alt alts :: suf)) with (render (Alt alts) ++ renders suf). rewrite group_first by auto.
    rewrite split_join by auto. rewrite map_map. rewrite <- expansions_group by auto.
    apply concat_opt_map. intros alt ha. rewrite <- !renders_app. apply IH.
    + apply Forall_app. split; auto. apply Forall_app. split; auto. rewrite Forall_forall in h5. specialize (h5 _ ha).
      eapply Forall_impl; [|exact h5]. apply wf_weaken.
    + apply groupsl_in in ha. rewrite !groupsl_app in *. change (groupsl (Alt alts :: suf)) with (S (list_sum (map groupsl alts)) + groupsl suf)%nat in hn. lia.
Qed.

(** Every pattern is expanded by some number of steps. *)
Lemma group_len ne p : forall d pre i pre' ins suf, find_group ne d pre i p = Some (pre', ins, suf) ->
  (length pre' + length ins + length suf < length pre + length p + match i with Some x => length x | None => 0 end)%nat.
Proof.
  assert (hn : exists n, (length p <= n)%nat) by eauto. destruct hn as [n hn]. revert p hn.
  induction n as [|n IH]; intros p hn d pre i pre' ins suf; (destruct p as [|c t]; [discriminate|]); cbn [length] in hn; [lia|].
  cbn [find_group].
  destruct (if (c =? 92) && negb ne then t else []) as [|x xs].
  2: { destruct t as [|y t']; [discriminate|]. cbn [length] in hn. destruct i as [i|]; intro h; apply IH in h; cbn [length] in *; lia. }
  destruct (c =? 123).
  { destruct d as [|d]; [destruct i; [discriminate|]|destruct i; [|discriminate]]; intro h; apply IH in h; cbn [length] in *; lia. }
  destruct (c =? 125).
  { destruct (pred d) as [|d']; (destruct i as [i|]; [|discriminate]).
    - intro h. inversion h; subst. rewrite !rev_length. cbn [length] in *. lia.
    - intro h; apply IH in h; cbn [length] in *; lia. }
  destruct i as [i|]; intro h; apply IH in h; cbn [length] in *; lia.
Qed.

Lemma split_len ne p : forall d cur x, In x (split_commas ne d cur p) -> (length x <= length cur + length p)%nat.
Proof.
  assert (hn : exists n, (length p <= n)%nat) by eauto. destruct hn as [n hn]. revert p hn.
  induction n as [|n IH]; intros p hn d cur x; (destruct p as [|c t]; [cbn; intros [<-|[]]; rewrite rev_length; lia|]); cbn [length] in hn; [lia|].
  cbn [split_commas]. destruct (if (c =? 92) && negb ne then t else []) as [|y ys].
  2: { destruct t as [|y' t']; [cbn; tauto|]. cbn [length] in hn. intro h; apply IH in h; cbn [length] in *; lia. }
  destruct (c =? 123); [intro h; apply IH in h; cbn [length] in *; lia|].
  destruct (c =? 125); [intro h; apply IH in h; cbn [length] in *; lia|].
  destruct ((c =? 44) && (d =? 0)%nat); [|intro h; apply IH in h; cbn [length] in *; lia].
  intros [<-|h]; [rewrite rev_length; lia|]. apply IH in h; cbn [length] in *; lia.
Qed.
Lemma concat_opt_total {X Y} (f : X -> option (list Y)) l : (forall x, In x l -> exists r, f x = Some r) -> exists r, concat_opt (map f l) = Some r.
Proof.
  induction l as [|x l IH]; intro h; [exists []; reflexivity|]. cbn. destruct (h x) as [r ->]; [cbn; auto|].
  destruct IH as [r' ->]; [intros; apply h; cbn; auto|]. eauto.
Qed.
Lemma expand_total ne n : forall p, (length p < n)%nat -> exists l, expand_braces n ne p = Some l.
Proof.
  induction n as [|n IH]; intros p hn; [lia|]. cbn [expand_braces].
  destruct (find_group ne 0 [] None p) as [[[pre ins] suf]|] eqn:E; [|eauto].
  apply group_len in E. cbn [length] in E. apply concat_opt_total. intros alt ha. apply split_len in ha. cbn [length] in ha.
  apply IH. rewrite !app_length. lia.
Qed.
Lemma any_opt_ok lower fl s l : exists b, any_opt (map (fun q => fnmatch1 lower fl q s) l) = Some b /\
  (b = true <-> exists e, In e l /\ in_lang lower fl e s).
Proof.
  induction l as [|q l IH]; cbn [map any_opt].
  - exists false. split; auto. split; [discriminate|intros (e & [] & _)].
  - destruct (fnmatch1_ok lower fl q s) as (b & -> & hb). destruct IH as (b' & IH & hb'). destruct b; cbn [oor].
    + exists true. split; auto. split; auto. intro. exists q. cbn. split; auto. apply hb; auto.
    + exists b'. split; auto. rewrite hb'. split; intros (e & h1 & h2); exists e; cbn; [tauto|].
      destruct h1 as [->|h1]; auto. apply hb in h2. discriminate.
Qed.
Theorem fnmatch_total lower fl p s : exists b, fnmatch lower fl p s = Some b.
Proof.
  unfold fnmatch. destruct (f_extglob fl).
  - destruct (expand_total (f_noescape fl) (S (length p)) p) as [l ->]; [lia|]. destruct (any_opt_ok lower fl s l) as (b & h & _). eauto.
  - destruct (fnmatch1_ok lower fl p s) as (b & h & _). eauto.
Qed.
Theorem fnmatch_plain lower fl p s : f_extglob fl = false ->
  exists b, fnmatch lower fl p s = Some b /\ (b = true <-> in_lang lower fl p s).
Proof. intro h. unfold fnmatch. rewrite h. apply fnmatch1_ok. Qed.
Theorem fnmatch_braces lower fl a s : f_extglob fl = true -> Forall (wf (f_noescape fl) false) a ->
  exists b, fnmatch lower fl (renders a) s = Some b /\ (b = true <-> exists e, In e (expansions a) /\ in_lang lower fl e s).
Proof.
  intros h hw. unfold fnmatch. rewrite h. rewrite expand_ok; auto; [apply any_opt_ok|]. pose proof (groupsl_len a). lia.
Qed.
