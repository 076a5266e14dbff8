(** Proofs about whole calls. *)

From Coq Require Import ZArith List Bool Lia.
From Verif Require Import ArgModel ArgSpec ArgProofs ArgKwProofs.
Import ListNotations.

Local Open Scope nat_scope.

Lemma spread_expand_gen : forall pos i (sp : list nat),
  (forall j, i <= j -> existsb (Nat.eqb j) sp = existsb (Nat.eqb j) (splat_positions i pos)) ->
  expand_splats i sp (map fst pos) = spread pos.
Proof.
  induction pos as [|[v b] pos IH]; intros i sp H; [reflexivity|].
  cbn [map fst expand_splats spread flat_map snd].
  assert (G : forall j k, j < k -> existsb (Nat.eqb j) (splat_positions k pos) = false).
  { clear. induction pos as [|[v b] pos IH]; intros j k L; cbn; [reflexivity|].
    rewrite existsb_app, IH by lia. destruct b; cbn; [|reflexivity].
    destruct (Nat.eqb_spec j k); [lia|reflexivity]. }
  rewrite H by lia. cbn [splat_positions]. rewrite existsb_app, G by lia.
  unfold spread in IH. f_equal.
  - destruct b; cbn; [|reflexivity]. rewrite Nat.eqb_refl. now destruct v.
  - apply IH. intros j L. rewrite H by lia. cbn [splat_positions]. rewrite existsb_app.
    destruct b; cbn; [|reflexivity]. destruct (Nat.eqb_spec j i); [lia|reflexivity].
Qed.

Lemma spread_expand : forall pos, expand_splats 0 (splat_positions 0 pos) (map fst pos) = spread pos.
Proof. intros pos. now apply spread_expand_gen. Qed.

Lemma splat_positions_nil : forall pos i,
  existsb snd pos = match splat_positions i pos with [] => false | _ => true end.
Proof.
  induction pos as [|[v b] pos IH]; intros i; cbn; [reflexivity|].
  destruct b; cbn; [reflexivity|]. apply IH.
Qed.

Lemma spread_plain : forall pos, existsb snd pos = false -> spread pos = map fst pos.
Proof.
  induction pos as [|[v b] pos IH]; intros H; cbn in *; [reflexivity|].
  apply orb_false_iff in H as [-> H]. cbn. now rewrite <- IH.
Qed.

Lemma split_last_app : forall l v, split_last (l ++ [v]) = Some (l, v).
Proof. intros l v. unfold split_last. rewrite rev_app_distr. cbn. now rewrite rev_involutive. Qed.

Lemma split_last_some : forall l h v, split_last l = Some (h, v) -> l = h ++ [v].
Proof.
  intros l h v. unfold split_last. destruct (rev l) as [|x r] eqn:E; [discriminate|].
  intros X. injection X as <- <-. rewrite <- (rev_involutive l), E. reflexivity.
Qed.

(** The lone argument a block takes apart is one the code looks at: written as
    the only argument, or the only element of the only splat if it is an
    Array; otherwise it is neither an Array nor convertible. *)
Definition plain (toary : value -> to_ary) (p : params) (pos : list (value * bool)) (kws : list kwarg)
  : Prop :=
  single_arg_expand p = true -> forall args h x,
  flight p (existsb snd pos) kws (spread pos) = (args, h) ->
  fst (fold_keywords p args h) = [x] ->
  (is_array x = false /\ toary x = TNone) \/ pos = [(x, false)]
  \/ (pos = [(VArr [x], true)] /\ is_array x = true).

Definition args_ok (pos : list (value * bool)) : Prop :=
  forall b h, In (VHash b h) (spread pos) -> hash_ok h.

(** The excess keywords. *)
Lemma excess_ok : forall p kws s, site_ok kws s -> lits_first kws ->
  excess p s = Ok (if no_keyword p then
                     match merge kws with [] => None | h => Some (VHash (p_r2k p) h) end
                   else None).
Proof.
  intros p kws s S F. unfold excess. rewrite (kw_may_exists_ok kws s S).
  destruct (no_keyword p); [|reflexivity]. destruct kws as [|k kws]; [reflexivity|].
  cbn [andb]. rewrite lit_entries_look by apply (so_slots _ _ S). rewrite (so_look _ _ S).
  cbn [bind]. rewrite hput_all_nil by apply lit_hash_ok.
  rewrite (so_splats _ _ S), <- merge_split by assumption.
  destruct (merge (k :: kws)); reflexivity.
Qed.

(** What happens to the arguments once they are spread. *)
Definition finish (p : params) (f : frame) (promote : bool) (buf : list value)
  : res (frame * option hash) :=
  match split_last buf with
  | Some (head, VHash true h) =>
      if promote then
        if negb (no_keyword p) then let! f := fill_slice p f head in Ok (f, Some h)
        else if p_r2k p then let! f := fill_slice p f buf in Ok (f, None)
        else let! f := fill_slice p f (head ++ [VHash false h]) in Ok (f, None)
      else let! f := fill_slice p f buf in Ok (f, None)
  | _ => let! f := fill_slice p f buf in Ok (f, None)
  end.

Definition opt_list (o : option value) : list value := match o with Some v => [v] | None => [] end.

Definition no_kws (kws : list kwarg) : bool := match kws with [] => true | _ => false end.

Lemma finish_ok : forall p f (has_splat : bool) kws (ex : option value) buf args h,
  ex = (if no_keyword p then match merge kws with [] => None | h => Some (VHash (p_r2k p) h) end else None) ->
  (forall b x, In (VHash b x) buf -> hash_ok x) ->
  flight p has_splat kws buf = (args, h) ->
  exists r2k,
    finish p f (no_kws kws && has_splat) (buf ++ opt_list ex) =
      (let! f := fill_slice p f (fst (fold_keywords p args h)) in Ok (f, r2k)) /\
    (no_keyword p = false -> passed kws r2k = h) /\
    (r2k <> None -> kws = [] /\ no_keyword p = false /\ r2k = Some h) /\
    match r2k with Some x => hash_ok x | None => True end.
Proof.
  intros p f has_splat kws ex buf args h EX OK FL. unfold flight in FL. unfold finish, fold_keywords.
  destruct (no_kws kws && has_splat) eqn:PR.
  - apply andb_true_iff in PR as [K ->]. destruct kws; [|discriminate]. cbn [merge fold_left] in *.
    assert (EN : opt_list ex = []) by (rewrite EX; destruct (no_keyword p); reflexivity).
    rewrite EN, app_nil_r.
    destruct (split_last buf) as [[head v]|] eqn:SL.
    + assert (BE := split_last_some _ _ _ SL).
      destruct v as [|z|l|[|] x].
      1,2,3,5: injection FL as <- <-; exists None; destruct (no_keyword p); cbn [fst];
        rewrite ?app_nil_r; repeat split; try (intros; congruence); auto.
      destruct (no_keyword p) eqn:N.
      * injection FL as <- <-. cbn [fst]. rewrite app_nil_r. exists None. cbn [negb].
        repeat split; try (intros; congruence).
        destruct (p_r2k p); [now rewrite BE|reflexivity].
      * injection FL as <- <-. exists (Some x). cbn [negb fst].
        assert (HX : hash_ok x). { apply (OK true). rewrite BE. apply in_or_app. right. now left. }
        repeat split; auto. cbn. intros _. now apply hput_all_nil.
    + injection FL as <- <-. exists None. destruct (no_keyword p); cbn [fst];
        rewrite ?app_nil_r; repeat split; try (intros; congruence); auto.
  - assert (FL' : (args, h) = (buf, merge kws)).
    { destruct kws; [|now rewrite <- FL]. destruct has_splat; [discriminate|]. now rewrite <- FL. }
    injection FL' as -> ->. clear FL. exists None.
    assert (FE : (match split_last (buf ++ opt_list ex) with
      | Some (head, VHash true h) => let! f := fill_slice p f (buf ++ opt_list ex) in Ok (f, None)
      | _ => let! f := fill_slice p f (buf ++ opt_list ex) in Ok (f, None)
      end) = (let! f := fill_slice p f (buf ++ opt_list ex) in Ok (f, @None hash))).
    { destruct (split_last (buf ++ opt_list ex)) as [[? [| | |[|] ?]]|]; reflexivity. }
    rewrite FE. subst ex. destruct (no_keyword p); cbn [fst opt_list].
    + repeat split; try (intros; congruence). destruct (merge kws); reflexivity.
    + rewrite app_nil_r. repeat split; try (intros; congruence).
Qed.

Lemma promote_ok : forall pos kws fwd,
  negb (kw_may_exists (compile_site pos kws fwd)) = no_kws kws.
Proof.
  intros pos kws fwd. rewrite (kw_may_exists_ok kws _ (compile_site_ok pos kws fwd)).
  destruct kws; reflexivity.
Qed.

Lemma bind_splat : forall toary p f pos kws fwd ex, existsb snd pos = true ->
  bind_positional toary p f (compile_site pos kws fwd) ex =
  match (if single_arg_expand p then check_expand (splat_positions 0 pos) (map fst pos) ex else None) with
  | Some l => let! f := fill_slice p f l in Ok (f, None)
  | None => finish p f (no_kws kws && true) (spread pos ++ opt_list ex)
  end.
Proof.
  intros toary p f pos kws fwd ex SP. rewrite (splat_positions_nil pos 0) in SP.
  assert (XP := spread_expand pos).
  unfold bind_positional. rewrite promote_ok. cbn [s_pos s_splat compile_site].
  destruct (splat_positions 0 pos) as [|s0 sps] eqn:SPP; [discriminate|].
  assert (K : forall (s0 : nat) (sps : list nat), match single_arg_expand p, map fst pos, ex, s0 :: sps with
    | true, [v], None, [] =>
        if is_array v then Ok None
        else match toary v with TNone => Ok None | TArr l => Ok (Some l) | TRaise => Err EType end
    | _, _, _, _ => Ok None
    end = Ok (@None (list value))).
  { intros. destruct (single_arg_expand p), (map fst pos) as [|? [|]], ex; reflexivity. }
  rewrite (K s0 sps). cbn [bind].
  destruct (if single_arg_expand p then check_expand (s0 :: sps) (map fst pos) ex else None); [reflexivity|].
  clear K.
  assert (G : (let buf := expand_splats 0 (s0 :: sps) (map fst pos)
                         ++ match ex with Some v => [v] | None => [] end in
              match split_last buf with
              | Some (head, VHash true h) =>
                  if no_kws kws && match s0 :: sps with [] => false | _ => true end then
                    if negb (no_keyword p) then let! f := fill_slice p f head in Ok (f, Some h)
                    else if p_r2k p then let! f := fill_slice p f buf in Ok (f, None)
                    else let! f := fill_slice p f (head ++ [VHash false h]) in Ok (f, None)
                  else let! f := fill_slice p f buf in Ok (f, None)
              | _ => let! f := fill_slice p f buf in Ok (f, None)
              end) = finish p f (no_kws kws && true) (spread pos ++ opt_list ex)).
  { rewrite XP. reflexivity. }
  destruct s0 as [|s0]; [|exact G]. destruct sps as [|s1 sps]; [|exact G].
  destruct ex as [v|]; [exact G|].
  destruct (map fst pos) as [|v [|w r]] eqn:MP; try exact G.
  - destruct v as [| |l|]; try exact G.
    rewrite <- G. cbn [expand_splats Nat.eqb existsb orb].
    rewrite !app_nil_r. cbn zeta. cbn [orb]. rewrite andb_true_r. reflexivity.
  - destruct v; exact G.
Qed.

Lemma bind_plain : forall toary p f pos kws fwd ex, existsb snd pos = false ->
  bind_positional toary p f (compile_site pos kws fwd) ex =
  let! coerced :=
    match single_arg_expand p, map fst pos, ex with
    | true, [v], None =>
        if is_array v then Ok None
        else match toary v with TNone => Ok None | TArr l => Ok (Some l) | TRaise => Err EType end
    | _, _, _ => Ok None
    end in
  match coerced with
  | Some l => let! f := fill_slice p f l in Ok (f, None)
  | None =>
    match (if single_arg_expand p then check_expand [] (map fst pos) ex else None) with
    | Some l => let! f := fill_slice p f l in Ok (f, None)
    | None =>
      match ex with
      | None => let! f := fill_slots p f (down (map fst pos)) (length (map fst pos)) in Ok (f, None)
      | Some v => finish p f (no_kws kws && false) (spread pos ++ [v])
      end
    end
  end.
Proof.
  intros toary p f pos kws fwd ex SP. assert (SN := SP). rewrite (splat_positions_nil pos 0) in SN.
  assert (XP := spread_expand pos).
  unfold bind_positional. rewrite promote_ok. cbn [s_pos s_splat compile_site].
  destruct (splat_positions 0 pos) as [|s0 sps] eqn:SPP; [|discriminate].
  destruct ex as [v|].
  - unfold finish. rewrite <- XP. reflexivity.
  - destruct (single_arg_expand p), (map fst pos) as [|? [|]]; reflexivity.
Qed.

(** The positional part of a call. *)
Lemma bind_positional_ok : forall toary p f pos kws fwd args h ex,
  args_ok pos -> plain toary p pos kws ->
  ex = (if no_keyword p then match merge kws with [] => None | h => Some (VHash (p_r2k p) h) end else None) ->
  flight p (existsb snd pos) kws (spread pos) = (args, h) ->
  exists ar r2k,
    autosplat toary p (fst (fold_keywords p args h)) ar /\
    match ar with
    | inr e => bind_positional toary p f (compile_site pos kws fwd) ex = Err e
    | inl l => exists u, bind_positional toary p f (compile_site pos kws fwd) ex =
        (let! f := fill_positional p f (src_of u l) (length l) u in Ok (f, r2k))
    end /\
    (no_keyword p = false -> passed kws r2k = h) /\
    (r2k <> None -> kws = [] /\ no_keyword p = false /\ r2k = Some h) /\
    match r2k with Some x => hash_ok x | None => True end.
Proof.
  intros toary p f pos kws fwd args h ex OK PL EX FL.
  assert (PL' := fun S x => PL S args h x FL). clear PL.
  destruct (finish_ok p f (existsb snd pos) kws ex (spread pos) args h EX OK FL)
    as (r2k & FE & R1 & R2 & R3).
  assert (FOLD : existsb snd pos = false -> fst (fold_keywords p args h) = map fst pos ++ opt_list ex
                 /\ h = merge kws).
  { intros N. rewrite N in FL. unfold flight in FL.
    assert (FL' : (args, h) = (spread pos, merge kws)) by (destruct kws; now rewrite <- FL).
    injection FL' as -> ->. rewrite spread_plain by assumption. split; [|reflexivity].
    unfold fold_keywords. rewrite EX. destruct (no_keyword p); cbn [fst opt_list]; [|now rewrite app_nil_r].
    destruct (merge kws); reflexivity. }
  destruct (existsb snd pos) eqn:SP.
  - (* splats *)
    rewrite bind_splat by assumption.
    destruct (if single_arg_expand p then check_expand (splat_positions 0 pos) (map fst pos) ex else None)
      as [l|] eqn:CE.
    + destruct (single_arg_expand p) eqn:SA; [|discriminate].
      assert (PE : pos = [(VArr [VArr l], true)] /\ ex = None).
      { clear -CE SP. destruct pos as [|[v b] [|[w c] pos]].
        - discriminate.
        - cbn in SP. rewrite orb_false_r in SP. cbn in SP. subst b. cbn in CE.
          destruct ex; [discriminate|]. destruct v as [| |[|[| |x|] [|]]|]; try discriminate.
          injection CE as ->. auto.
        - cbn [map fst check_expand] in CE. discriminate. }
      destruct PE as [-> EN]. cbn in FL.
      assert (FL' : (args, h) = ([VArr l], merge kws)) by (destruct kws; now rewrite <- FL).
      injection FL' as -> ->. clear FL.
      assert (FF : fst (fold_keywords p [VArr l] (merge kws)) = [VArr l]).
      { unfold fold_keywords. destruct (no_keyword p); [|reflexivity]. cbn [fst].
        destruct (merge kws); [reflexivity|congruence]. }
      rewrite FF in *. exists (inl l), None. split; [|split; [|split; [|split]]].
      * now apply as_array.
      * exists true. reflexivity.
      * reflexivity.
      * congruence.
      * exact I.
    + exists (inl (fst (fold_keywords p args h))), r2k.
      split; [|split; [|split; [|split]]]; auto.
      * destruct (single_arg_expand p) eqn:SA; [|now apply as_not].
        destruct (fst (fold_keywords p args h)) as [|x [|y l]] eqn:A.
        -- apply as_several. discriminate.
        -- destruct (PL' eq_refl x eq_refl) as [[X1 X2]|[->|[-> X]]].
           ++ apply (as_conv toary p [x] x); auto. now rewrite X2.
           ++ discriminate.
           ++ exfalso. destruct x as [| |xl|]; try discriminate. cbn in CE.
              destruct ex as [hv|]; [|discriminate].
              cbn in FL. assert (FL' : (args, h) = ([VArr xl], merge kws)) by (destruct kws; now rewrite <- FL).
              injection FL' as -> ->. unfold fold_keywords in A. destruct (no_keyword p); [|discriminate].
              destruct (merge kws); [discriminate|]. discriminate.
        -- apply as_several. discriminate.
      * exists true. exact FE.
  - destruct (FOLD eq_refl) as [FO HM]. rewrite FO in *. rewrite bind_plain by assumption.
    rewrite spread_plain in * by assumption.
    assert (RN : kws = [] \/ r2k = None) by (destruct r2k; [left; apply R2; discriminate|now right]).
    assert (RE : no_keyword p = false -> passed kws None = h) by (intros _; now rewrite HM).
    (* the list is filled in as it is *)
    assert (FILL : exists u,
      (match ex with
       | None => let! f := fill_slots p f (down (map fst pos)) (length (map fst pos)) in Ok (f, None)
       | Some v => finish p f (no_kws kws && false) (map fst pos ++ [v])
       end) =
      (let! f := fill_positional p f (src_of u (map fst pos ++ opt_list ex))
                   (length (map fst pos ++ opt_list ex)) u in Ok (f, @None hash))).
    { destruct ex as [v|].
      - exists true. cbn [opt_list]. rewrite andb_false_r. unfold finish. rewrite split_last_app.
        destruct v as [| | |[|] ?]; reflexivity.
      - exists false. cbn [opt_list]. rewrite app_nil_r. reflexivity. }
    destruct FILL as [u FILL].
    destruct (single_arg_expand p) eqn:SA.
    2:{ exists (inl (map fst pos ++ opt_list ex)), None. cbn [bind].
        split; [now apply as_not|]. split; [exists u; exact FILL|].
        split; [exact RE|]. split; [congruence|exact I]. }
    destruct (map fst pos) as [|v [|w rest]] eqn:MP.
    + (* no positional argument *)
      cbn [bind].
      assert (CE : check_expand [] [] ex = None).
      { rewrite EX. destruct (no_keyword p); [|reflexivity]. destruct (merge kws); reflexivity. }
      rewrite CE. exists (inl ([] ++ opt_list ex)), None.
      split; [|split; [exists u; exact FILL|split; [exact RE|split; [congruence|exact I]]]].
      destruct ex as [hv|] eqn:EE; cbn [opt_list app] in *.
      * destruct (PL' eq_refl hv eq_refl) as [[X1 X2]|[->|[-> X]]]; try discriminate.
        apply (as_conv toary p [hv] hv); auto. now rewrite X2.
      * apply as_several. discriminate.
    + (* one *)
      destruct ex as [hv|] eqn:EE; cbn [opt_list app] in *.
      * cbn [bind check_expand]. exists (inl [v; hv]), None.
        split; [apply as_several; discriminate|].
        split; [exists u; exact FILL|split; [exact RE|split; [congruence|exact I]]].
      * destruct (is_array v) eqn:IA.
        -- destruct v as [| |l|]; try discriminate. cbn [bind check_expand].
           exists (inl l), None. split; [now apply as_array|]. split; [exists true; reflexivity|].
           split; [exact RE|split; [congruence|exact I]].
        -- destruct (toary v) as [|l|] eqn:TV; cbn [bind].
           ++ assert (CE : check_expand [] [v] None = None) by (destruct v; try discriminate; reflexivity).
              rewrite CE. exists (inl [v]), None.
              split; [apply (as_conv toary p [v] v); auto; now rewrite TV|].
              split; [exists u; exact FILL|split; [exact RE|split; [congruence|exact I]]].
           ++ exists (inl l), None. split; [apply (as_conv toary p [v] v); auto; now rewrite TV|].
              split; [exists true; reflexivity|]. split; [exact RE|split; [congruence|exact I]].
           ++ exists (inr EType), None. split; [apply (as_conv toary p [v] v); auto; now rewrite TV|].
              split; [reflexivity|]. split; [exact RE|split; [congruence|exact I]].
    + (* several *)
      cbn [bind check_expand]. exists (inl ((v :: w :: rest) ++ opt_list ex)), None.
      split; [apply as_several; discriminate|].
      split; [exists u; exact FILL|split; [exact RE|split; [congruence|exact I]]].
Qed.

(** No flagged Hash reaches a [**nil] callee. *)
Definition no_flight (p : params) (pos : list (value * bool)) (kws : list kwarg) : Prop :=
  p_forbid p = true -> kws = [] -> forall args h,
  flight p (existsb snd pos) kws (spread pos) = (args, h) -> h = [].

Lemma flight_written : forall p b kws l, kws <> [] -> flight p b kws l = (l, merge kws).
Proof. intros p b [|k kws] l H; [congruence|reflexivity]. Qed.

Lemma no_keyword_parts : forall p, no_keyword p = true -> p_kws p = [] /\ p_kwrest p = false.
Proof.
  intros p N. unfold no_keyword in N. destruct (p_kws p); [|discriminate].
  split; [reflexivity|]. now apply negb_true_iff.
Qed.

Lemma flight_no_keyword : forall p b l args h, no_keyword p = true ->
  flight p b [] l = (args, h) -> h = [].
Proof.
  intros p b l args h N. unfold flight. rewrite N. cbn.
  destruct b; [|intros E; now injection E].
  destruct (split_last l) as [[hd [| | |[|] x]]|]; intros E; now injection E.
Qed.

Theorem set_callee_ok : forall toary p f pos kws fwd,
  params_ok p -> lits_first kws -> hashes_ok (splats kws) -> args_ok pos ->
  plain toary p pos kws -> no_flight p pos kws -> slots p <= length f ->
  exists r, call_result toary p pos kws r /\
            agrees f (set_callee toary p f (compile_site pos kws fwd)) r.
Proof.
  intros toary p f pos kws fwd PO F OK AO PL NF LF.
  assert (SO := compile_site_ok pos kws fwd).
  destruct (flight p (existsb snd pos) kws (spread pos)) as [args h] eqn:FL.
  assert (LT : total_pos p <= length f) by (unfold slots in LF; lia).
  (* the positional arguments [l], then the keywords *)
  assert (MAIN : forall (r2k : option hash) l u bp,
    (p_forbid p = true -> h = []) ->
    autosplat toary p (fst (fold_keywords p args h)) (inl l) ->
    (no_keyword p = false -> passed kws r2k = h) ->
    (r2k <> None -> kws = [] /\ no_keyword p = false /\ r2k = Some h) ->
    match r2k with Some x => hash_ok x | None => True end ->
    bp = (let! f := fill_positional p f (src_of u l) (length l) u in Ok (f, r2k)) ->
    exists r, call_result toary p pos kws r /\
      agrees f (let! (f, r2k) := bp in
                if negb (no_keyword p) || negb (kw_may_exists (compile_site pos kws fwd))
                then handle_keyword p f (compile_site pos kws fwd) r2k else Ok f) r).
  { intros r2k l u bp FB AS R1 R2 R3 ->.
    destruct (fill_positional_spec p f l u LT) as [(B & A & E)|(cs & P & E)].
    - exists (inr (EArity (length l))). split; [eapply cr_arity; eassumption|].
      rewrite E. reflexivity.
    - rewrite E. cbn [bind]. assert (LC := positional_length _ _ _ P).
      destruct (negb (no_keyword p) || negb (kw_may_exists (compile_site pos kws fwd))) eqn:HK.
      + destruct (handle_keyword_ok p kws (compile_site pos kws fwd) r2k cs (skipn (length cs) f))
          as (x & X1 & X2); auto.
        * intros N. rewrite N in HK. cbn [negb orb] in HK. rewrite promote_ok in HK.
          destruct kws; [|discriminate]. split; [reflexivity|].
          destruct r2k; [|reflexivity]. destruct R2 as (_ & R2 & _); congruence.
        * intros FO. specialize (FB FO). destruct kws as [|k kws].
          -- split; [reflexivity|]. destruct r2k as [x|]; [|reflexivity].
             destruct R2 as (_ & R2 & R4); [discriminate|]. injection R4 as ->. subst h. reflexivity.
          -- rewrite flight_written in FL by discriminate. injection FL as <- <-.
             split; [exact FB|]. destruct r2k; [|exact FB]. destruct R2; congruence.
        * rewrite skipn_length. lia.
        * assert (PS : snd (fold_keywords p args h) = passed kws r2k).
          { unfold fold_keywords. destruct (no_keyword p) eqn:N; [|symmetry; now apply R1].
            cbn [snd]. cbn [negb orb] in HK. rewrite promote_ok in HK. destruct kws; [|discriminate].
            destruct r2k; [|reflexivity]. destruct R2 as (_ & R2 & _); congruence. }
          rewrite <- PS in X1. destruct x as [ks|e].
          -- exists (inl (cs ++ ks)). split; [eapply cr_bound; eassumption|].
             cbn [agrees]. rewrite X2. f_equal. rewrite <- app_assoc. do 2 f_equal.
             apply ext. intros j. rewrite !nth_skip, app_length. f_equal. lia.
          -- exists (inr e). split; [eapply cr_keyword; eassumption|exact X2].
      + apply orb_false_iff in HK as [N _]. apply negb_false_iff in N.
        destruct (no_keyword_parts p N) as [K1 K2].
        exists (inl (cs ++ [])). split.
        * eapply cr_bound; try eassumption.
          unfold fold_keywords. rewrite N. cbn [snd].
          replace (@nil cell) with (kw_cells p []) by (unfold kw_cells; now rewrite K1).
          apply kwr_plain; [unfold missing_kws; now rewrite K1|exact K2|reflexivity].
        * cbn. now rewrite app_nil_r. }
  unfold set_callee.
  destruct (match s_splat (compile_site pos kws fwd) with [] => true | _ => false end
     && negb (kw_may_exists (compile_site pos kws fwd)) && no_keyword p
     && negb (p_forbid p) && negb (single_arg_expand p) && negb (p_r2k p)) eqn:FAST.
  - repeat (apply andb_true_iff in FAST as [FAST ?]).
    rewrite promote_ok in *. destruct kws; [|discriminate]. cbn [s_splat compile_site] in FAST.
    assert (SP : existsb snd pos = false).
    { rewrite (splat_positions_nil pos 0). destruct (splat_positions 0 pos); [reflexivity|discriminate]. }
    rewrite SP in FL. cbn in FL. injection FL as <- <-.
    rewrite !negb_true_iff in *.
    destruct (MAIN None (map fst pos) false
      (let! f := fill_slots p f (down (map fst pos)) (length (map fst pos)) in Ok (f, None)))
      as (r & R1 & R2); auto.
    + replace (fst (fold_keywords p (spread pos) [])) with (map fst pos).
      * now apply as_not.
      * unfold fold_keywords. rewrite spread_plain by assumption. destruct (no_keyword p); [|reflexivity].
        cbn. now rewrite app_nil_r.
    + congruence.
    + exists r. split; [exact R1|]. cbn [s_pos compile_site].
      replace (fill_slots p f (down (map fst pos)) (length (map fst pos))) with
        (let! (f, r2k) := let! f := fill_slots p f (down (map fst pos)) (length (map fst pos)) in
           Ok (f, @None hash) in
         if negb (no_keyword p) || negb (kw_may_exists (compile_site pos [] fwd))
         then handle_keyword p f (compile_site pos [] fwd) r2k else Ok f); [exact R2|].
      destruct (fill_slots p f (down (map fst pos)) (length (map fst pos))); try reflexivity.
      cbn [bind]. rewrite H2. cbn [negb orb kw_may_exists compile_site s_kw_args s_hsplat lits splats im_fill].
      apply handle_keyword_none; auto.
  - clear FAST. destruct (p_forbid p && any_keyword_passed (compile_site pos kws fwd)) eqn:AK.
    + apply andb_true_iff in AK as [FO AK]. apply (any_passed kws _ SO F) in AK.
      exists (inr ENoKw). split; [|reflexivity]. apply (cr_nokw toary p pos kws args h FL FO).
      destruct kws; [contradiction AK; reflexivity|]. rewrite flight_written in FL by discriminate.
      injection FL as <- <-. exact AK.
    + assert (FB : p_forbid p = true -> h = []).
      { intros FO. rewrite FO in AK. cbn [andb] in AK. destruct kws as [|k kws].
        - exact (NF FO eq_refl _ _ FL).
        - rewrite flight_written in FL by discriminate. injection FL as <- <-.
          assert (X := any_passed (k :: kws) _ SO F). rewrite AK in X.
          destruct (merge (k :: kws)); [reflexivity|]. destruct X as [_ X]. discriminate X. discriminate. }
      rewrite (excess_ok p kws _ SO F). cbn [bind].
      destruct (bind_positional_ok toary p f pos kws fwd args h _ AO PL eq_refl FL)
        as (ar & r2k & A1 & A2 & A3 & A4 & A5).
      destruct ar as [l|e].
      * destruct A2 as [u A2]. exact (MAIN r2k l u _ FB A1 A3 A4 A5 A2).
      * rewrite A2. exists (inr e). split; [|reflexivity]. eapply cr_raise; eassumption.
Qed.

(** ** The result of a call is determined, up to the order in which unknown
    keywords are listed and to nil standing for an empty [**rest]. *)
Definition same_result (a b : list cell + err) : Prop :=
  a = b
  \/ (exists u u', a = inr (EUnknown u) /\ b = inr (EUnknown u') /\ forall k, In k u <-> In k u')
  \/ (exists pre c c', a = inl (pre ++ [c]) /\ b = inl (pre ++ [c']) /\
        is_kwrest [] c /\ is_kwrest [] c').

Lemma autosplat_fun : forall toary p args a b,
  autosplat toary p args a -> autosplat toary p args b -> a = b.
Proof.
  intros toary p args.
  assert (G : forall a, autosplat toary p args a -> a =
    match args, single_arg_expand p with
    | [VArr l], true => inl l
    | [v], true => match toary v with TNone => inl args | TArr l => inl l | TRaise => inr EType end
    | _, _ => inl args
    end).
  { intros a H. destruct H as [N|N|l S ->|v r S -> IA ->].
    - destruct args as [|v [|w r]]; [reflexivity|exfalso; now apply (N v)|now destruct v].
    - rewrite N. destruct args as [|v [|w r]]; [reflexivity| |]; now destruct v.
    - now rewrite S.
    - rewrite S. destruct v; try reflexivity. discriminate. }
  intros a b H1 H2. now rewrite (G a H1), (G b H2).
Qed.

Lemma kw_result_fun : forall p h a b, kw_result p h a -> kw_result p h b ->
  a = b
  \/ (exists u u', a = inr (EUnknown u) /\ b = inr (EUnknown u') /\ forall k, In k u <-> In k u')
  \/ (exists pre c c', a = inl (pre ++ [c]) /\ b = inl (pre ++ [c']) /\
        is_kwrest [] c /\ is_kwrest [] c').
Proof.
  intros p h a b H1 H2.
  destruct H1 as [M1|u1 M1 R1 L1 U1|c1 M1 R1 K1|M1 R1 L1];
    destruct H2 as [M2|u2 M2 R2 L2 U2|c2 M2 R2 K2|M2 R2 L2]; try congruence; auto.
  - right. left. exists u1, u2. split; [reflexivity|]. split; [reflexivity|].
    intros k. rewrite U1. symmetry. apply U2.
  - destruct K1 as [->|[E ->]], K2 as [->|[E' ->]]; auto.
    + right. right. exists (kw_cells p h), (Val (VHash false (leftover p h))), (Val VNil).
      repeat split; auto; [left; now rewrite E'|right; auto].
    + right. right. exists (kw_cells p h), (Val VNil), (Val (VHash false (leftover p h))).
      repeat split; auto; [right; auto|left; now rewrite E].
Qed.

Theorem call_result_fun : forall toary p pos kws a b,
  call_result toary p pos kws a -> call_result toary p pos kws b -> same_result a b.
Proof.
  intros toary p pos kws a b H1 H2.
  assert (AS : forall args h x args' h' y,
    flight p (existsb snd pos) kws (spread pos) = (args, h) ->
    flight p (existsb snd pos) kws (spread pos) = (args', h') ->
    autosplat toary p (fst (fold_keywords p args h)) x ->
    autosplat toary p (fst (fold_keywords p args' h')) y -> x = y /\ args = args' /\ h = h').
  { intros args h x args' h' y F1 F2 A1 A2. rewrite F1 in F2. injection F2 as <- <-.
    split; [|auto]. eapply autosplat_fun; eassumption. }
  assert (PA : forall l cs, p_block p = false -> ~ accepts p (length l) -> positional p l cs -> False).
  { intros l cs B A P. inversion P; subst; [contradiction|congruence]. }
  unfold same_result.
  destruct H1 as [a1 h1 F1 FO1 N1|e1 a1 h1 F1 FB1 A1|a1 h1 l1 F1 FB1 A1 B1 C1
                 |a1 h1 l1 cs1 e1 F1 FB1 A1 P1 K1|a1 h1 l1 cs1 ks1 F1 FB1 A1 P1 K1];
  destruct H2 as [a2 h2 F2 FO2 N2|e2 a2 h2 F2 FB2 A2|a2 h2 l2 F2 FB2 A2 B2 C2
                 |a2 h2 l2 cs2 e2 F2 FB2 A2 P2 K2|a2 h2 l2 cs2 ks2 F2 FB2 A2 P2 K2].
  1: now left.
  1-4: rewrite F1 in F2; injection F2 as <- <-; exfalso; auto.
  1,6,11,16: rewrite F1 in F2; injection F2 as <- <-; exfalso; auto.
  all: destruct (AS _ _ _ _ _ _ F1 F2 A1 A2) as (E & -> & ->); try discriminate E; injection E as E; subst.
  all: try (now left).
  all: try (exfalso; eapply PA; eassumption).
  - destruct (kw_result_fun _ _ _ _ K1 K2) as [E|[E|E]]; [left; exact E|right; left; exact E|].
    destruct E as (? & ? & ? & E & _); discriminate E.
  - destruct (kw_result_fun _ _ _ _ K1 K2) as [E|[E|E]]; [discriminate E| |].
    + destruct E as (? & ? & _ & E & _); discriminate E.
    + destruct E as (? & ? & ? & E & _); discriminate E.
  - destruct (kw_result_fun _ _ _ _ K1 K2) as [E|[E|E]]; [discriminate E| |].
    + destruct E as (? & ? & E & _); discriminate E.
    + destruct E as (? & ? & ? & _ & E & _); discriminate E.
  - rewrite (positional_fun _ _ _ _ P1 P2).
    destruct (kw_result_fun _ _ _ _ K1 K2) as [E|[E|E]].
    + left. injection E as ->. reflexivity.
    + destruct E as (? & ? & E & _); discriminate E.
    + right. right. destruct E as (pre & c & c' & E1 & E2 & X1 & X2).
      injection E1 as ->. injection E2 as ->.
      exists (cs2 ++ pre), c, c'. rewrite <- !app_assoc. auto.
Qed.
