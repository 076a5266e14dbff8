From Coq Require Import List Bool ZArith Lia.
From Verif Require Import SuccModel SuccSpec.
Import ListNotations.
Open Scope Z_scope.

Definition facts (c : Z) : Prop :=
  match alphabet c with
  | None => category c = Other
  | Some (f, n) => category c = (if numeric c then Digit else Alpha) /\ f <= c < f + n /\ 0 < n /\ 0 <= f
                   /\ succ_char c = (if c =? f + n - 1 then (f, true) else (c + 1, false))
  end.
Lemma facts_all : forall c, (0 <=? c) && (c <? 127) = true -> facts c.
Proof.
  assert (H : forallb (fun k => let c := Z.of_nat k in
     match alphabet c with
     | None => cat_eqb (category c) Other
     | Some (f, n) => cat_eqb (category c) (if numeric c then Digit else Alpha) && (f <=? c) && (c <? f + n) && (0 <? n) && (0 <=? f)
         && (fst (succ_char c) =? (if c =? f + n - 1 then f else c + 1)) && eqb (snd (succ_char c)) (c =? f + n - 1)
     end) (seq 0 127) = true) by (vm_compute; reflexivity).
  intros c hc. apply andb_true_iff in hc. destruct hc as [h1 h2]. apply Z.leb_le in h1. apply Z.ltb_lt in h2.
  assert (B := proj1 (forallb_forall _ _) H (Z.to_nat c) ltac:(apply in_seq; lia)). cbv beta zeta in B. rewrite Z2Nat.id in B by lia.
  unfold facts. destruct (alphabet c) as [[f n]|].
  - apply andb_true_iff in B. destruct B as [B b6]. apply andb_true_iff in B. destruct B as [B b5].
    apply andb_true_iff in B. destruct B as [B b4]. apply andb_true_iff in B. destruct B as [B b3].
    apply andb_true_iff in B. destruct B as [B b2]. apply andb_true_iff in B. destruct B as [B b1].
    split; [destruct (category c), (numeric c); try reflexivity; discriminate|].
    apply Z.leb_le in b1. apply Z.ltb_lt in b2. apply Z.ltb_lt in b3. apply Z.leb_le in b4. apply Z.eqb_eq in b5. apply eqb_prop in b6.
    split; [lia|]. split; [lia|]. split; [lia|].
    destruct (succ_char c) as [x w]. cbn [fst snd] in b5, b6. subst x w. destruct (c =? f + n - 1); reflexivity.
  - destruct (category c); [discriminate|discriminate|reflexivity].
Qed.

Lemma loop_rest r : forall i carry finish pad st la, finish || negb carry = true -> loop r i carry finish pad st la = (r, carry, la).
Proof. induction r as [|c r IH]; intros i carry finish pad st la h; [reflexivity|]. cbn [loop]. rewrite h. rewrite IH by exact h. reflexivity. Qed.

Lemma reach_bound r : forall last near i best, reach last near r i best = best \/ (i < reach last near r i best)%nat.
Proof.
  induction r as [|c r IH]; intros last near i best; [left; reflexivity|]. cbn [reach].
  destruct (alnum c).
  - destruct (near || _); [|left; reflexivity]. right. destruct (IH (Some (numeric c)) true (S i) (S i)) as [->|h]; lia.
  - destruct (IH last false (S i) best) as [->|h]; [left; reflexivity|right; lia].
Qed.
Lemma reach_le r : forall last near i best, (best <= i)%nat -> (reach last near r i best <= i + length r)%nat.
Proof.
  induction r as [|c r IH]; intros last near i best h; [cbn; lia|]. cbn [reach length].
  destruct (alnum c).
  - destruct (near || _); [|lia]. specialize (IH (Some (numeric c)) true (S i) (S i) ltac:(lia)). lia.
  - specialize (IH last false (S i) best ltac:(lia)). lia.
Qed.

Definition good (r : list Z) : Prop := forall c, In c r -> facts c.
Lemma value_bound r : good r -> 0 <= value r < capacity r.
Proof.
  induction r as [|c r IH]; intros g; [cbn; lia|]. assert (F := g c (or_introl eq_refl)). specialize (IH (fun x hx => g x (or_intror hx))).
  cbn [value capacity]. unfold facts in F. destruct (alphabet c) as [[f n]|]; [|exact IH]. destruct F as [_ [h [hn _]]]. nia.
Qed.
Lemma write_same r : good r -> write r (value r) = r.
Proof.
  induction r as [|c r IH]; intros g; [reflexivity|]. assert (F := g c (or_introl eq_refl)). specialize (IH (fun x hx => g x (or_intror hx))).
  cbn [value write]. unfold facts in F. destruct (alphabet c) as [[f n]|]; [|rewrite IH; reflexivity]. destruct F as [_ [h [hn _]]].
  rewrite (Z.mul_comm n), Z_mod_plus_full, Z_div_plus_full by lia. rewrite Z.mod_small, Z.div_small by lia. rewrite Z.add_0_l, IH. f_equal. lia.
Qed.

Definition isdig (k : cat) : bool := cat_eqb k Digit.
(** What the loop does from position [i] on, against the number of the chunk that remains. *)
Definition outcome (r : list Z) (i n la : nat) (res : list Z * bool * nat) : Prop :=
  let chunk := firstn (n - i) r in
  let over := value chunk + 1 =? capacity chunk in
  fst (fst res) = write chunk (value chunk + 1) ++ skipn (n - i) r /\ snd (fst res) = over /\ (over = true -> S (snd res) = n).

Lemma loop_main r : good r -> forall i p k la, (S la <= i)%nat -> k <> Other ->
  outcome r i (reach (Some (isdig k)) (negb p) r i (S la)) la (loop r i true false p (Some k) la).
Proof.
  induction r as [|c r IH]; intros g i p k la hla hk.
  - unfold outcome. rewrite firstn_nil, skipn_nil. cbn. split; [reflexivity|split; [reflexivity|reflexivity]].
  - assert (F := g c (or_introl eq_refl)). assert (g' : good r) by (intros x hx; exact (g x (or_intror hx))).
    cbn [loop reach]. cbn [orb negb]. unfold alnum. unfold facts in F.
    destruct (alphabet c) as [[f n]|] eqn:ea.
    + destruct F as [fc [fb [fn [f0 fs]]]].
      assert (STEP : forall st, (st = Some (if numeric c then Digit else Alpha)) ->
        outcome (c :: r) i (reach (Some (numeric c)) true r (S i) (S i)) la
          (let '(next, wrapped) := succ_char c in
           if wrapped then (let '(o, cy, l) := loop r (S i) true false false st i in (next :: o, cy, l))
           else (let '(o, cy, l) := loop r (S i) false false false st la in (next :: o, cy, l)))).
      { intros st hst. subst st. rewrite fs.
        assert (B : (S i <= reach (Some (numeric c)) true r (S i) (S i))%nat).
        { destruct (reach_bound r (Some (numeric c)) true (S i) (S i)) as [->|h]; lia. }
        specialize (IH g' (S i) false (if numeric c then Digit else Alpha) i ltac:(lia) ltac:(destruct (numeric c); discriminate)).
        replace (isdig (if numeric c then Digit else Alpha)) with (numeric c) in IH by (destruct (numeric c); reflexivity).
        cbn [negb] in IH. set (m := reach (Some (numeric c)) true r (S i) (S i)) in *.
        unfold outcome. replace (m - i)%nat with (S (m - S i))%nat by lia. cbn [firstn skipn value capacity write]. rewrite ea.
        assert (VB := value_bound (firstn (m - S i) r) ltac:(intros x hx; apply g'; rewrite <- (firstn_skipn (m - S i) r); apply in_or_app; left; exact hx)).
        assert (WS := write_same (firstn (m - S i) r) ltac:(intros x hx; apply g'; rewrite <- (firstn_skipn (m - S i) r); apply in_or_app; left; exact hx)).
        assert (FS := firstn_skipn (m - S i) r).
        unfold outcome in IH. set (ch := firstn (m - S i) r) in *. clearbody ch.
        destruct (Z.eqb_spec c (f + n - 1)) as [e|ne].
        - destruct (loop r (S i) true false false _ i) as [[o cy] l]. cbn [fst snd] in *. destruct IH as [I1 [I2 I3]].
          replace (c - f + n * value ch + 1) with ((value ch + 1) * n) by lia.
          rewrite Z_mod_mult, Z_div_mult_full by lia. rewrite Z.add_0_r.
          split; [rewrite I1; reflexivity|].
          assert (E : ((value ch + 1) * n =? n * capacity ch) = (value ch + 1 =? capacity ch)).
          { destruct (Z.eqb_spec (value ch + 1) (capacity ch)) as [q|q]; [rewrite q; apply Z.eqb_eq; lia|apply Z.eqb_neq; nia]. }
          rewrite E. split; [exact I2|exact I3].
        - rewrite loop_rest by reflexivity. cbn [fst snd].
          replace (c - f + n * value ch + 1) with (c + 1 - f + value ch * n) by lia.
          rewrite Z_mod_plus_full, Z_div_plus_full by lia. rewrite Z.mod_small, Z.div_small by lia. rewrite Z.add_0_l, WS.
          assert (E : (c + 1 - f + value ch * n =? n * capacity ch) = false) by (apply Z.eqb_neq; nia).
          rewrite E. split; [|split; [reflexivity|discriminate]]. replace (f + (c + 1 - f)) with (c + 1) by lia. cbn [app].
          f_equal. symmetry. exact FS. }
      assert (nc : category c <> Other) by (rewrite fc; destruct (numeric c); discriminate).
      assert (LK : forall A (x y : A), match category c with Other => x | _ => y end = y) by (intros; rewrite fc; destruct (numeric c); reflexivity).
      rewrite fc. destruct p; cbn [negb orb andb].
      * destruct k; [| |congruence].
        -- destruct (numeric c) eqn:en; cbn.
           ++ rewrite loop_rest by reflexivity. unfold outcome. replace (S la - i)%nat with 0%nat by lia. cbn [firstn skipn fst snd value capacity write app].
              split; [reflexivity|split; [reflexivity|reflexivity]].
           ++ apply STEP. reflexivity.
        -- destruct (numeric c) eqn:en; cbn.
           ++ apply STEP. reflexivity.
           ++ rewrite loop_rest by reflexivity. unfold outcome. replace (S la - i)%nat with 0%nat by lia. cbn [firstn skipn fst snd value capacity write app].
              split; [reflexivity|split; [reflexivity|reflexivity]].
      * destruct (numeric c) eqn:en; cbn; apply STEP; reflexivity.
    + rewrite F. specialize (IH g' (S i) true k la ltac:(lia) hk). cbn [negb] in IH.
      destruct (loop r (S i) true false true (Some k) la) as [[o cy] l].
      assert (B := reach_bound r (Some (isdig k)) false (S i) (S la)). assert (B2 := reach_bound (c :: r) (Some (isdig k)) false i (S la)).
      set (m := reach (Some (isdig k)) false r (S i) (S la)) in *. unfold outcome in IH |- *. cbn [fst snd] in *. destruct IH as [I1 [I2 I3]].
      destruct B as [B|B].
      * replace (m - S i)%nat with 0%nat in * by lia. replace (m - i)%nat with 0%nat by lia. cbn [firstn skipn value capacity write app] in *.
        subst o. split; [reflexivity|split; [exact I2|exact I3]].
      * replace (m - i)%nat with (S (m - S i)) by lia. cbn [firstn skipn value capacity write]. rewrite ea.
        subst o. split; [reflexivity|split; [exact I2|exact I3]].
Qed.

(** Up to the first letter or digit *)
Lemma loop_start r : good r -> existsb alnum r = true -> forall i p la, p = false \/ settled r = true -> (p = false -> match r with c :: _ => alnum c = true | [] => True end) ->
  outcome r i (reach None false r i 0) la (loop r i true false p None la) /\ (i < reach None false r i 0)%nat.
Proof.
  induction r as [|c r IH]; intros g hx i p la hp hf; [discriminate|].
  assert (F := g c (or_introl eq_refl)). assert (g' : good r) by (intros x h; exact (g x (or_intror h))).
  cbn [loop reach orb negb]. unfold facts in F. cbn [settled existsb] in hp, hx. unfold alnum in hx, hf |- *.
  destruct (alphabet c) as [[f n]|] eqn:ea.
  - destruct F as [fc [fb [fn [f0 fs]]]]. cbn [orb].
    assert (B : (S i <= reach (Some (numeric c)) true r (S i) (S i))%nat).
    { destruct (reach_bound r (Some (numeric c)) true (S i) (S i)) as [->|h]; lia. }
    split; [|lia].
    assert (MAIN : forall st, (c <> f + n - 1 \/ outcome r (S i) (reach (Some (numeric c)) true r (S i) (S i)) i (loop r (S i) true false false st i)) ->
        outcome (c :: r) i (reach (Some (numeric c)) true r (S i) (S i)) la
          (let '(next, wrapped) := succ_char c in
           if wrapped then (let '(o, cy, l) := loop r (S i) true false false st i in (next :: o, cy, l))
           else (let '(o, cy, l) := loop r (S i) false false false st la in (next :: o, cy, l)))).
    { intros st OUT. rewrite fs. set (m := reach (Some (numeric c)) true r (S i) (S i)) in *.
      unfold outcome. replace (m - i)%nat with (S (m - S i))%nat by lia. cbn [firstn skipn value capacity write]. rewrite ea.
      assert (VB := value_bound (firstn (m - S i) r) ltac:(intros x h; apply g'; rewrite <- (firstn_skipn (m - S i) r); apply in_or_app; left; exact h)).
      assert (WS := write_same (firstn (m - S i) r) ltac:(intros x h; apply g'; rewrite <- (firstn_skipn (m - S i) r); apply in_or_app; left; exact h)).
      assert (FS := firstn_skipn (m - S i) r). unfold outcome in OUT. set (ch := firstn (m - S i) r) in *. clearbody ch.
      destruct (Z.eqb_spec c (f + n - 1)) as [e|ne].
      - destruct OUT as [OUT|OUT]; [congruence|]. destruct (loop r (S i) true false false st i) as [[o cy] l]. cbn [fst snd] in *. destruct OUT as [I1 [I2 I3]].
        replace (c - f + n * value ch + 1) with ((value ch + 1) * n) by lia.
        rewrite Z_mod_mult, Z_div_mult_full by lia. rewrite Z.add_0_r. split; [rewrite I1; reflexivity|].
        assert (E : ((value ch + 1) * n =? n * capacity ch) = (value ch + 1 =? capacity ch)).
        { destruct (Z.eqb_spec (value ch + 1) (capacity ch)) as [q|q]; [rewrite q; apply Z.eqb_eq; lia|apply Z.eqb_neq; nia]. }
        rewrite E. split; [exact I2|exact I3].
      - rewrite loop_rest by reflexivity. cbn [fst snd].
        replace (c - f + n * value ch + 1) with (c + 1 - f + value ch * n) by lia.
        rewrite Z_mod_plus_full, Z_div_plus_full by lia. rewrite Z.mod_small, Z.div_small by lia. rewrite Z.add_0_l, WS.
        assert (E : (c + 1 - f + value ch * n =? n * capacity ch) = false) by (apply Z.eqb_neq; nia).
        rewrite E. split; [|split; [reflexivity|discriminate]]. replace (f + (c + 1 - f)) with (c + 1) by lia. cbn [app].
        f_equal. symmetry. exact FS. }
    assert (LM := loop_main r g' (S i) false (if numeric c then Digit else Alpha) i ltac:(lia) ltac:(destruct (numeric c); discriminate)).
    replace (isdig (if numeric c then Digit else Alpha)) with (numeric c) in LM by (destruct (numeric c); reflexivity). cbn [negb] in LM.
    rewrite fc. destruct p.
    + destruct hp as [hp|hp]; [discriminate|].
      assert (OUT : c <> f + n - 1 \/ outcome r (S i) (reach (Some (numeric c)) true r (S i) (S i)) i (loop r (S i) true false false None i)).
      { destruct (Z.eqb_spec c (f + n - 1)) as [e|ne]; [right|left; exact ne]. cbn [negb orb] in hp.
        destruct r as [|d r]; [exact LM|]. unfold alnum in hp. assert (Fd := g' d (or_introl eq_refl)). unfold facts in Fd.
        destruct (alphabet d) as [[fd nd]|]; [|discriminate]. destruct Fd as [fcd _].
        cbn [loop orb negb andb] in LM |- *. rewrite fcd in LM |- *. destruct (numeric d); exact LM. }
      destruct (numeric c); cbn; apply MAIN; exact OUT.
    + destruct (numeric c); cbn; apply MAIN; right; exact LM.
  - rewrite F. cbn [orb] in hx. destruct p; [|specialize (hf eq_refl); discriminate].
    destruct hp as [hp|hp]; [discriminate|].
    specialize (IH g' hx (S i) true la (or_intror hp) ltac:(discriminate)). destruct IH as [IH B].
    split; [|lia]. destruct (loop r (S i) true false true None la) as [[o cy] l].
    set (m := reach None false r (S i) 0) in *. unfold outcome in IH |- *. cbn [fst snd] in *. destruct IH as [I1 [I2 I3]].
    replace (m - i)%nat with (S (m - S i)) by lia. cbn [firstn skipn value capacity write]. rewrite ea.
    subst o. split; [reflexivity|split; [exact I2|exact I3]].
Qed.

Lemma write_length r : forall v, length (write r v) = length r.
Proof. induction r as [|c r IH]; intros v; [reflexivity|]. cbn [write length]. destruct (alphabet c) as [[f n]|]; cbn [length]; rewrite IH; reflexivity. Qed.
Definition zero (c : Z) : Z := match alphabet c with Some (f, _) => f | None => c end.
Lemma write_full r : good r -> write r (capacity r) = map zero r.
Proof.
  induction r as [|c r IH]; intros g; [reflexivity|]. assert (F := g c (or_introl eq_refl)). specialize (IH (fun x hx => g x (or_intror hx))).
  cbn [write capacity map]. unfold zero at 1. unfold facts in F. destruct (alphabet c) as [[f n]|]; [|rewrite IH; reflexivity].
  destruct F as [_ [h [hn _]]]. rewrite (Z.mul_comm n), Z_mod_mult, Z_div_mult_full by lia. rewrite IH, Z.add_0_r. reflexivity.
Qed.
Lemma reach_alnum r : forall last near i best, (i < reach last near r i best)%nat -> (best <= i)%nat ->
  alnum (nth (reach last near r i best - 1 - i) r 0) = true.
Proof.
  induction r as [|c r IH]; intros last near i best h hb; [cbn in h; lia|]. cbn [reach] in *.
  destruct (alnum c) eqn:ea.
  - destruct (near || _); [|lia].
    destruct (reach_bound r (Some (numeric c)) true (S i) (S i)) as [e|e].
    + rewrite e. replace (S i - 1 - i)%nat with 0%nat by lia. exact ea.
    + specialize (IH (Some (numeric c)) true (S i) (S i) e ltac:(lia)).
      set (m := reach (Some (numeric c)) true r (S i) (S i)) in *. replace (m - 1 - i)%nat with (S (m - 1 - S i))%nat by lia. exact IH.
  - destruct (reach_bound r last false (S i) best) as [e|e]; [lia|].
    specialize (IH last false (S i) best e ltac:(lia)).
    set (m := reach last false r (S i) best) in *. replace (m - 1 - i)%nat with (S (m - 1 - S i))%nat by lia. exact IH.
Qed.
Lemma insert_app l m x : insert (l ++ m) (length l) x = l ++ [x] ++ m.
Proof. induction l as [|a l IH]; [destruct m; reflexivity|]. cbn [app length insert]. rewrite IH. reflexivity. Qed.
Lemma last_nth (l : list Z) d : last l d = nth (length l - 1) l d.
Proof.
  induction l as [|a l IH]; [reflexivity|]. destruct l as [|b l]; [reflexivity|].
  change (last (a :: b :: l) d) with (last (b :: l) d). rewrite IH. cbn [length].
  replace (S (S (length l)) - 1)%nat with (S (S (length l) - 1)) by lia. reflexivity.
Qed.
Lemma extra_ok c : facts c -> alnum c = true -> (if cat_eqb (category (zero c)) Digit then fst (succ_char (zero c)) else zero c) = extra c.
Proof.
  intros F h. unfold alnum in h. unfold zero, extra. unfold alphabet in *. fold (numeric c) in *.
  destruct (numeric c); [reflexivity|]. destruct ((65 <=? c) && (c <=? 90)); [reflexivity|].
  destruct ((97 <=? c) && (c <=? 122)); [reflexivity|discriminate].
Qed.
Lemma none_alnum r : good r -> forallb (fun c => cat_eqb (category c) Other) r = negb (existsb alnum r).
Proof.
  induction r as [|c r IH]; intros g; [reflexivity|]. assert (F := g c (or_introl eq_refl)). specialize (IH (fun x hx => g x (or_intror hx))).
  cbn [forallb existsb]. rewrite IH, negb_orb. f_equal. unfold alnum. unfold facts in F.
  destruct (alphabet c) as [[f n]|]; [destruct F as [-> _]; destruct (numeric c); reflexivity|rewrite F; reflexivity].
Qed.
Lemma existsb_rev {A} (f : A -> bool) l : existsb f (rev l) = existsb f l.
Proof. induction l as [|a l IH]; [reflexivity|]. cbn [rev existsb]. rewrite existsb_app, IH. cbn. rewrite orb_false_r. apply orb_comm. Qed.

Lemma succ_eq s : ascii s = true -> fair s = true -> str_next s = ruby_succ s.
Proof.
  intros hs hf. assert (g : good (rev s)).
  { intros x hx. apply facts_all. apply in_rev in hx. exact (proj1 (forallb_forall _ _) hs x hx). }
  unfold str_next, ruby_succ, fair in *. rewrite <- (existsb_rev alnum s). destruct (rev s) as [|c r]; [reflexivity|].
  rewrite (none_alnum (c :: r) g). destruct (existsb alnum (c :: r)) eqn:ex; cbn [negb]; [|reflexivity].
  assert (START : outcome (c :: r) 0 (reach None false (c :: r) 0 0) 0 (loop (c :: r) 0 true false false None 0) /\ (0 < reach None false (c :: r) 0 0)%nat).
  { destruct (alnum c) eqn:ea.
    - apply loop_start; [exact g|exact ex|left; reflexivity|intros _; exact ea].
    - cbn [orb] in hf. replace (loop (c :: r) 0 true false false None 0) with (loop (c :: r) 0 true false true None 0).
      + apply loop_start; [exact g|exact ex|right; exact hf|discriminate].
      + assert (F := g c (or_introl eq_refl)). unfold facts in F. unfold alnum in ea. destruct (alphabet c); [discriminate|].
        cbn [loop orb negb]. rewrite F. reflexivity. }
  destruct START as [OUT pos]. assert (LE := reach_le (c :: r) None false 0 0 ltac:(lia)). assert (AL := reach_alnum (c :: r) None false 0 0 pos ltac:(lia)).
  set (n := reach None false (c :: r) 0 0) in *. clearbody n. set (l := c :: r) in *.
  destruct (loop l 0 true false false None 0) as [[buf carry] la]. unfold outcome in OUT. rewrite Nat.sub_0_r in *. cbn [fst snd] in OUT. rewrite Nat.add_0_l in LE.
  destruct OUT as [O1 [O2 O3]]. set (part := firstn n l) in *.
  assert (lp : length part = n) by (apply firstn_length_le; exact LE).
  f_equal. subst buf carry. destruct (Z.eqb_spec (value part + 1) (capacity part)) as [e|e]; [|reflexivity].
  specialize (O3 eq_refl). rewrite e. rewrite O3.
  assert (lw : length (write part (capacity part)) = n) by (rewrite write_length; exact lp).
  replace (nth la (write part (capacity part) ++ skipn n l) 0) with (zero (last part 0)).
  - assert (LA : last part 0 = nth (n - 1) l 0).
    { rewrite last_nth, lp. unfold part. rewrite <- (firstn_skipn n l) at 2. rewrite app_nth1; [reflexivity|fold part; lia]. }
    rewrite <- LA in AL.
    rewrite extra_ok; [|apply g; unfold l in *; rewrite LA; apply nth_In; lia|exact AL].
    assert (IA := insert_app (write part (capacity part)) (skipn n l) (extra (last part 0))). rewrite lw in IA. exact IA.
  - rewrite app_nth1 by lia. rewrite write_full.
    + rewrite last_nth, lp. replace (n - 1)%nat with la by lia.
      rewrite (nth_indep (map zero part) 0 (zero 0)) by (rewrite map_length; lia). rewrite map_nth. reflexivity.
    + intros x hx. apply g. unfold l, part in *. rewrite <- (firstn_skipn n (c :: r)). apply in_or_app. left. exact hx.
Qed.

(** a-9- *)
Lemma gap_bad : str_next [97; 45; 57; 45] = [98; 45; 48; 45] /\ ruby_succ [97; 45; 57; 45] = [97; 45; 49; 48; 45].
Proof. split; reflexivity. Qed.
